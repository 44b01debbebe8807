(** The block matrix of the adjoint system, written constraint by constraint. *)
From Coq Require Import ZArith Reals List Bool Lia Lra.
From Verif Require Import Num Arr ArrFacts RSum Csc CscSpec VecFacts RealStep QpSpec DerivSpec DerivAsm DerivNorm DerivRows.
Import ListNotations.
Open Scope Z_scope.

Section Emb.
  Variables (p : qp) (x y : Z -> R).
  Let n := q_n p.
  Let m := q_m p.
  Hypothesis (Hn : 0 <= n) (Hm : 0 <= m) (SY : symmetric p).
  Let sL := sel (has_low p) m.
  Let sU := sel (has_up p) m.
  Let sE := sel (is_eq p) m.
  Let nl := zlen sL.
  Let nu := zlen sU.
  Let ne := zlen sE.
  Definition bN := n + nl + nu + ne.
  Let N := bN.
  Let Hnl : 0 <= nl := zlen_nonneg sL.
  Let Hnu : 0 <= nu := zlen_nonneg sU.
  Let Hne : 0 <= ne := zlen_nonneg sE.

  (** The vector of the linear system that holds vx and, for the selected constraints, vl, vu, ve. *)
  Definition emb (vx vl vu ve : Z -> R) (a : Z) : R :=
    if a <? n then vx a else if a <? n + nl then vl (znth 0%Z sL (a - n)) else if a <? n + nl + nu then vu (znth 0%Z sU (a - n - nl)) else ve (znth 0%Z sE (a - n - nl - nu)).

  Lemma zsum_N f : zsum 0 N f = (zsum 0 n f + zsum 0 nl (fun a => f (n + a)%Z) + zsum 0 nu (fun a => f (n + nl + a)%Z) + zsum 0 ne (fun a => f (n + nl + nu + a)%Z))%R.
  Proof.
    unfold N, bN. rewrite (zsum_app 0 (n + nl + nu)) by lia. rewrite (zsum_app 0 (n + nl) (n + nl + nu)) by lia. rewrite (zsum_app 0 n (n + nl)) by lia.
    assert (HS : forall a b, zsum a (a + b) f = zsum 0 b (fun i => f (a + i))).
    { intros a b. pose proof (zsum_shift 0 b a f) as HH. replace (0 + a) with a in HH by lia. replace (b + a) with (a + b) in HH by lia. rewrite HH. apply zsum_ext. intros i Hi. f_equal. lia. }
    rewrite !HS. reflexivity.
  Qed.

  Lemma emb_x vx vl vu ve a : 0 <= a < n -> emb vx vl vu ve a = vx a.
  Proof. intros Ha. unfold emb. replace (a <? n) with true by lia. auto. Qed.
  Lemma emb_l vx vl vu ve a : 0 <= a < nl -> emb vx vl vu ve (n + a) = vl (znth 0%Z sL a).
  Proof. intros Ha. unfold emb. replace (n + a <? n) with false by lia. replace (n + a <? n + nl) with true by lia. do 2 f_equal. lia. Qed.
  Lemma emb_u vx vl vu ve a : 0 <= a < nu -> emb vx vl vu ve (n + nl + a) = vu (znth 0%Z sU a).
  Proof. intros Ha. unfold emb. replace (n + nl + a <? n) with false by lia. replace (n + nl + a <? n + nl) with false by lia. replace (n + nl + a <? n + nl + nu) with true by lia. do 2 f_equal. lia. Qed.
  Lemma emb_e vx vl vu ve a : 0 <= a < ne -> emb vx vl vu ve (n + nl + nu + a) = ve (znth 0%Z sE a).
  Proof. intros Ha. unfold emb. replace (n + nl + nu + a <? n) with false by lia. replace (n + nl + nu + a <? n + nl) with false by lia. replace (n + nl + nu + a <? n + nl + nu) with false by lia. do 2 f_equal. lia. Qed.

  Lemma emb_ind (Q : Z -> Prop) : (forall a, 0 <= a < n -> Q a) -> (forall a, 0 <= a < nl -> Q (n + a)) -> (forall a, 0 <= a < nu -> Q (n + nl + a)) -> (forall a, 0 <= a < ne -> Q (n + nl + nu + a)) ->
    forall a, 0 <= a < N -> Q a.
  Proof.
    intros H1 H2 H3 H4 a Ha. unfold N, bN in Ha. destruct (Z_lt_dec a n); [apply H1; lia|]. destruct (Z_lt_dec a (n + nl)); [replace a with (n + (a - n)) by lia; apply H2; lia|].
    destruct (Z_lt_dec a (n + nl + nu)); [replace a with (n + nl + (a - n - nl)) by lia; apply H3; lia|]. replace a with (n + nl + nu + (a - n - nl - nu)) by lia. apply H4. lia.
  Qed.

  (** A sum over the system's indices is a sum over variables and constraints. *)
  Lemma sum_emb (h : Z -> R) (fx fl fu fe : Z -> R) : (forall a, 0 <= a < n -> h a = fx a) -> (forall a, 0 <= a < nl -> h (n + a) = fl (znth 0%Z sL a)) ->
    (forall a, 0 <= a < nu -> h (n + nl + a) = fu (znth 0%Z sU a)) -> (forall a, 0 <= a < ne -> h (n + nl + nu + a) = fe (znth 0%Z sE a)) ->
    zsum 0 N h = (zsum 0 n fx + zsum 0 m (fun i => on (has_low p i) (fl i) + on (has_up p i) (fu i) + on (is_eq p i) (fe i)))%R.
  Proof.
    intros H1 H2 H3 H4. rewrite zsum_N. rewrite (zsum_ext 0 n _ _ H1), (zsum_ext 0 nl _ _ H2), (zsum_ext 0 nu _ _ H3), (zsum_ext 0 ne _ _ H4).
    unfold nl, nu, ne, sL, sU, sE. rewrite !zsum_sel. rewrite !zsum_plus. unfold on. ring.
  Qed.

  Lemma ip_emb a b c d a' b' c' d' : ip N (emb a b c d) (emb a' b' c' d') =
    (zsum 0 n (fun j => a j * a' j) + zsum 0 m (fun i => on (has_low p i) (b i * b' i) + on (has_up p i) (c i * c' i) + on (is_eq p i) (d i * d' i)))%R.
  Proof.
    unfold ip. apply (sum_emb _ (fun j => a j * a' j)%R (fun i => b i * b' i)%R (fun i => c i * c' i)%R (fun i => d i * d' i)%R); intros k Hk.
    - rewrite !emb_x by auto. auto.
    - rewrite !emb_l by auto. auto.
    - rewrite !emb_u by auto. auto.
    - rewrite !emb_e by auto. auto.
  Qed.
  Lemma sq_emb a b c d : sq N (emb a b c d) = size p a b c d.
  Proof. change (sq N (emb a b c d)) with (ip N (emb a b c d) (emb a b c d)). rewrite ip_emb. reflexivity. Qed.

  (** Every vector is of this form. *)
  Definition e_l (w : Z -> R) (i : Z) : R := w (n + zlen (sel (has_low p) i)).
  Definition e_u (w : Z -> R) (i : Z) : R := w (n + nl + zlen (sel (has_up p) i)).
  Definition e_e (w : Z -> R) (i : Z) : R := w (n + nl + nu + zlen (sel (is_eq p) i)).
  Lemma emb_all w a : 0 <= a < N -> w a = emb w (e_l w) (e_u w) (e_e w) a.
  Proof.
    revert a. apply emb_ind; intros a Ha.
    - rewrite emb_x by auto. auto.
    - rewrite emb_l by auto. unfold e_l, sL. rewrite sel_rank by auto. auto.
    - rewrite emb_u by auto. unfold e_u, sU. rewrite sel_rank by auto. auto.
    - rewrite emb_e by auto. unfold e_e, sE. rewrite sel_rank by auto. auto.
  Qed.

  Variables (G Ae H Pd : Z -> Z -> R) (s : Z -> R).
  Hypothesis HPd : forall i j, 0 <= i < n -> 0 <= j < n -> Pd i j = q_P p i j.
  Hypothesis HGl : forall a j, 0 <= a < nl -> 0 <= j < n -> G a j = (- q_A p (znth 0%Z sL a) j)%R.
  Hypothesis HGu : forall a j, 0 <= a < nu -> 0 <= j < n -> G (nl + a) j = q_A p (znth 0%Z sU a) j.
  Hypothesis HAe : forall a j, 0 <= a < ne -> 0 <= j < n -> Ae a j = q_A p (znth 0%Z sE a) j.
  Hypothesis HHl : forall a j, 0 <= a < nl -> 0 <= j < n -> H a j = (lamL y (znth 0%Z sL a) * G a j)%R.
  Hypothesis HHu : forall a j, 0 <= a < nu -> 0 <= j < n -> H (nl + a) j = (lamU y (znth 0%Z sU a) * G (nl + a)%Z j)%R.
  Hypothesis Hsl : forall a, 0 <= a < nl -> s a = (q_l p (znth 0%Z sL a) - Amul p x (znth 0%Z sL a))%R.
  Hypothesis Hsu : forall a, 0 <= a < nu -> s (nl + a) = (Amul p x (znth 0%Z sU a) - q_u p (znth 0%Z sU a))%R.
  Let M := blockM n (nl + nu) Pd G Ae H s.

  Lemma tpM_emb vx vl vu ve a : 0 <= a < N ->
    mv N (tp M) (emb vx vl vu ve) a = emb (J_stat p vx vl vu ve) (J_low p x y vx vl) (J_up p x y vx vu) (J_eq p vx) a.
  Proof.
    revert a. apply emb_ind; intros b Hb; unfold mv, tp.
    - rewrite emb_x by auto.
      rewrite (sum_emb _ (fun a => q_P p b a * vx a)%R (fun i => - q_A p i b * vl i)%R (fun i => q_A p i b * vu i)%R (fun i => q_A p i b * ve i)%R).
      + unfold J_stat, Pmul, mulR, sumn. fold n m. f_equal. apply zsum_ext. intros i Hi. unfold on. destruct (has_low p i), (has_up p i), (is_eq p i); ring.
      + intros a Ha. rewrite emb_x by auto. unfold M, blockM. replace (b <? n) with true by lia. replace (a <? n) with true by lia. rewrite HPd by auto. rewrite SY. auto.
      + intros a Ha. rewrite emb_l by auto. unfold M, blockM. replace (b <? n) with true by lia. replace (n + a <? n) with false by lia. replace (n + a <? n + (nl + nu)) with true by lia.
        replace (n + a - n) with a by lia. rewrite HGl by auto. auto.
      + intros a Ha. rewrite emb_u by auto. unfold M, blockM. replace (b <? n) with true by lia. replace (n + nl + a <? n) with false by lia. replace (n + nl + a <? n + (nl + nu)) with true by lia.
        replace (n + nl + a - n) with (nl + a) by lia. rewrite HGu by auto. auto.
      + intros a Ha. rewrite emb_e by auto. unfold M, blockM. replace (b <? n) with true by lia. replace (n + nl + nu + a <? n) with false by lia. replace (n + nl + nu + a <? n + (nl + nu)) with false by lia.
        replace (n + nl + nu + a - n - (nl + nu)) with a by lia. rewrite HAe by auto. auto.
    - rewrite emb_l by auto. rewrite zsum_N.
      rewrite (zsum_ext 0 n _ (fun a => - lamL y (znth 0%Z sL b) * (q_A p (znth 0%Z sL b) a * vx a))%R).
      2:{ intros a Ha. rewrite emb_x by auto. unfold M, blockM. replace (n + b <? n) with false by lia. replace (n + b <? n + (nl + nu)) with true by lia. replace (a <? n) with true by lia.
          replace (n + b - n) with b by lia. rewrite HHl, HGl by auto. ring. }
      rewrite (zsum_ext 0 nl _ (fun a => if a =? b then s b * vl (znth 0%Z sL a) else 0)%R).
      2:{ intros a Ha. rewrite emb_l by auto. unfold M, blockM. replace (n + b <? n) with false by lia. replace (n + b <? n + (nl + nu)) with true by lia. replace (n + a <? n) with false by lia.
          destruct (Z.eqb_spec a b) as [->|Hne']; [rewrite Z.eqb_refl; replace (n + b - n) with b by lia; auto|]. replace (n + a =? n + b) with false by lia. ring. }
      rewrite zsum_single by auto. rewrite (zsum_0 0 nu), (zsum_0 0 ne).
      + rewrite zsum_scal. unfold J_low. rewrite Hsl by auto. unfold Amul, mulR. fold n. ring.
      + intros a Ha. unfold M, blockM. replace (n + b <? n) with false by lia. replace (n + b <? n + (nl + nu)) with true by lia. replace (n + nl + nu + a <? n) with false by lia.
        replace (n + nl + nu + a =? n + b) with false by lia. ring.
      + intros a Ha. unfold M, blockM. replace (n + b <? n) with false by lia. replace (n + b <? n + (nl + nu)) with true by lia. replace (n + nl + a <? n) with false by lia.
        replace (n + nl + a =? n + b) with false by lia. ring.
    - rewrite emb_u by auto. rewrite zsum_N.
      rewrite (zsum_ext 0 n _ (fun a => lamU y (znth 0%Z sU b) * (q_A p (znth 0%Z sU b) a * vx a))%R).
      2:{ intros a Ha. rewrite emb_x by auto. unfold M, blockM. replace (n + nl + b <? n) with false by lia. replace (n + nl + b <? n + (nl + nu)) with true by lia. replace (a <? n) with true by lia.
          replace (n + nl + b - n) with (nl + b) by lia. rewrite HHu, HGu by auto. ring. }
      rewrite (zsum_ext 0 nu _ (fun a => if a =? b then s (nl + b)%Z * vu (znth 0%Z sU a) else 0)%R).
      2:{ intros a Ha. rewrite emb_u by auto. unfold M, blockM. replace (n + nl + b <? n) with false by lia. replace (n + nl + b <? n + (nl + nu)) with true by lia. replace (n + nl + a <? n) with false by lia.
          destruct (Z.eqb_spec a b) as [->|Hne']; [rewrite Z.eqb_refl; replace (n + nl + b - n) with (nl + b) by lia; auto|]. replace (n + nl + a =? n + nl + b) with false by lia. ring. }
      rewrite (zsum_single 0 nu) by auto. rewrite (zsum_0 0 nl), (zsum_0 0 ne).
      + rewrite zsum_scal. unfold J_up. rewrite Hsu by auto. unfold Amul, mulR. fold n. ring.
      + intros a Ha. unfold M, blockM. replace (n + nl + b <? n) with false by lia. replace (n + nl + b <? n + (nl + nu)) with true by lia. replace (n + nl + nu + a <? n) with false by lia.
        replace (n + nl + nu + a =? n + nl + b) with false by lia. ring.
      + intros a Ha. unfold M, blockM. replace (n + nl + b <? n) with false by lia. replace (n + nl + b <? n + (nl + nu)) with true by lia. replace (n + a <? n) with false by lia.
        replace (n + a =? n + nl + b) with false by lia. ring.
    - rewrite emb_e by auto. rewrite zsum_N.
      assert (F1 : (n + nl + nu + b <? n) = false) by lia. assert (F2 : (n + nl + nu + b <? n + (nl + nu)) = false) by lia.
      rewrite (zsum_0 0 nl), (zsum_0 0 nu), (zsum_0 0 ne).
      + unfold J_eq, Amul, mulR. fold n. rewrite !Rplus_0_r. apply zsum_ext. intros a Ha. rewrite emb_x by auto. unfold M, blockM. rewrite F1, F2. replace (a <? n) with true by lia.
        replace (n + nl + nu + b - n - (nl + nu)) with b by lia. rewrite HAe by auto. auto.
      + intros a Ha. unfold M, blockM. rewrite F1, F2. replace (n + nl + nu + a <? n) with false by lia. ring.
      + intros a Ha. unfold M, blockM. rewrite F1, F2. replace (n + nl + a <? n) with false by lia. ring.
      + intros a Ha. unfold M, blockM. rewrite F1, F2. replace (n + a <? n) with false by lia. ring.
  Qed.

  Lemma cond_below k : (0 <= k)%R -> conditioned p x y k -> below N (tp M) k.
  Proof.
    intros Hk HC w. rewrite (nrm_ext N w (emb w (e_l w) (e_u w) (e_e w))) by (intros; apply emb_all; auto).
    rewrite (nrm_ext N (mv N (tp M) w) (mv N (tp M) (emb w (e_l w) (e_u w) (e_e w)))).
    2:{ intros i Hi. unfold mv. apply zsum_ext. intros j Hj. rewrite (emb_all w j Hj) at 1. auto. }
    rewrite (nrm_ext N (mv N (tp M) (emb w (e_l w) (e_u w) (e_e w))) _ (tpM_emb w (e_l w) (e_u w) (e_e w))).
    specialize (HC w (e_l w) (e_u w) (e_e w)). unfold nrm. rewrite !sq_emb. rewrite <- (sqrt_square k Hk) at 1. rewrite <- sqrt_mult_alt by (apply Rmult_le_pos; auto).
    apply sqrt_le_1_alt. exact HC.
  Qed.
End Emb.
