(** Finite sums of reals over lists, in particular over integer ranges. *)
From Coq Require Import ZArith Reals List Lia Lra Permutation Bool.
From Verif Require Import Arr ArrFacts.
Import ListNotations.
Open Scope R_scope.

Fixpoint lsum {X} (f : X -> R) (l : list X) : R :=
  match l with [] => 0 | x :: t => f x + lsum f t end.

(** sum of f i for lo <= i < hi *)
Definition zsum (lo hi : Z) (f : Z -> R) : R := lsum f (zseq lo hi).

Section L.
  Context {X : Type}.
  Implicit Types (f g : X -> R) (l : list X).

  Lemma lsum_app f l1 l2 : lsum f (l1 ++ l2) = lsum f l1 + lsum f l2.
  Proof. induction l1; simpl; lra. Qed.

  Lemma lsum_snoc f l x : lsum f (l ++ [x]) = lsum f l + f x.
  Proof. rewrite lsum_app; simpl; lra. Qed.

  Lemma lsum_ext f g l : (forall x, In x l -> f x = g x) -> lsum f l = lsum g l.
  Proof. induction l; simpl; intros H; auto. rewrite H by auto. rewrite IHl; auto. Qed.

  Lemma lsum_plus f g l : lsum (fun x => f x + g x) l = lsum f l + lsum g l.
  Proof. induction l; simpl; lra. Qed.

  Lemma lsum_minus f g l : lsum (fun x => f x - g x) l = lsum f l - lsum g l.
  Proof. induction l; simpl; lra. Qed.

  Lemma lsum_scal c f l : lsum (fun x => c * f x) l = c * lsum f l.
  Proof. induction l; simpl; lra. Qed.

  Lemma lsum_scal_r c f l : lsum (fun x => f x * c) l = lsum f l * c.
  Proof. induction l; simpl; lra. Qed.

  Lemma lsum_0 f l : (forall x, In x l -> f x = 0) -> lsum f l = 0.
  Proof. induction l; simpl; intros H; auto. rewrite H by auto. rewrite IHl by auto. lra. Qed.

  Lemma lsum_perm f l1 l2 : Permutation l1 l2 -> lsum f l1 = lsum f l2.
  Proof. induction 1; simpl; lra. Qed.

  Lemma lsum_le f g l : (forall x, In x l -> f x <= g x) -> lsum f l <= lsum g l.
  Proof.
    induction l; simpl; intros H; [lra|].
    assert (f a <= g a) by (apply H; auto). assert (lsum f l <= lsum g l) by (apply IHl; auto). lra.
  Qed.

  Lemma lsum_nonneg f l : (forall x, In x l -> 0 <= f x) -> 0 <= lsum f l.
  Proof.
    intros H. replace 0 with (lsum (fun _ : X => 0) l) by (apply lsum_0; auto).
    apply lsum_le. auto.
  Qed.

  Lemma lsum_filter (b : X -> bool) f l :
    lsum (fun x => if b x then f x else 0) l = lsum f (filter b l).
  Proof. induction l; simpl; auto. destruct (b a); simpl; lra. Qed.

  Lemma lsum_abs f l : Rabs (lsum f l) <= lsum (fun x => Rabs (f x)) l.
  Proof.
    induction l; simpl. { rewrite Rabs_R0; lra. }
    eapply Rle_trans; [apply Rabs_triang|]. lra.
  Qed.
End L.

Lemma lsum_map {X Y} (f : Y -> R) (g : X -> Y) l : lsum f (map g l) = lsum (fun x => f (g x)) l.
Proof. induction l; simpl; lra. Qed.

Lemma lsum_flat_map {X Y} (f : Y -> R) (g : X -> list Y) l :
  lsum f (flat_map g l) = lsum (fun x => lsum f (g x)) l.
Proof. induction l; simpl; auto. rewrite lsum_app. lra. Qed.

Lemma lsum_swap {X Y} (f : X -> Y -> R) l1 l2 :
  lsum (fun x => lsum (f x) l2) l1 = lsum (fun y => lsum (fun x => f x y) l1) l2.
Proof.
  induction l1; simpl.
  - symmetry. apply lsum_0. auto.
  - rewrite IHl1. rewrite <- lsum_plus. auto.
Qed.

Lemma zsum_nil lo hi f : (hi <= lo)%Z -> zsum lo hi f = 0.
Proof. intros; unfold zsum; rewrite zseq_nil by auto; auto. Qed.

Lemma zsum_snoc lo hi f : (lo <= hi)%Z -> zsum lo (hi + 1) f = zsum lo hi f + f hi.
Proof. intros; unfold zsum; rewrite zseq_snoc by auto. apply lsum_snoc. Qed.

Lemma zsum_app a b c f : (a <= b)%Z -> (b <= c)%Z -> zsum a c f = zsum a b f + zsum b c f.
Proof. intros; unfold zsum; rewrite (zseq_app a b c) by auto. apply lsum_app. Qed.

Lemma zsum_ext lo hi f g : (forall i, (lo <= i < hi)%Z -> f i = g i) -> zsum lo hi f = zsum lo hi g.
Proof. intros H. apply lsum_ext. intros x Hx. apply In_zseq in Hx. auto. Qed.

Lemma zsum_plus lo hi f g : zsum lo hi (fun i => f i + g i) = zsum lo hi f + zsum lo hi g.
Proof. apply lsum_plus. Qed.
Lemma zsum_minus lo hi f g : zsum lo hi (fun i => f i - g i) = zsum lo hi f - zsum lo hi g.
Proof. apply lsum_minus. Qed.
Lemma zsum_scal lo hi c f : zsum lo hi (fun i => c * f i) = c * zsum lo hi f.
Proof. apply lsum_scal. Qed.
Lemma zsum_scal_r lo hi c f : zsum lo hi (fun i => f i * c) = zsum lo hi f * c.
Proof. apply lsum_scal_r. Qed.
Lemma zsum_0 lo hi f : (forall i, (lo <= i < hi)%Z -> f i = 0) -> zsum lo hi f = 0.
Proof. intros H. apply lsum_0. intros x Hx. apply In_zseq in Hx. auto. Qed.
Lemma zsum_swap a b c d f :
  zsum a b (fun i => zsum c d (f i)) = zsum c d (fun j => zsum a b (fun i => f i j)).
Proof. apply lsum_swap. Qed.
Lemma zsum_le lo hi f g : (forall i, (lo <= i < hi)%Z -> f i <= g i) -> zsum lo hi f <= zsum lo hi g.
Proof. intros H. apply lsum_le. intros x Hx. apply In_zseq in Hx. auto. Qed.
Lemma zsum_nonneg lo hi f : (forall i, (lo <= i < hi)%Z -> 0 <= f i) -> 0 <= zsum lo hi f.
Proof. intros H. apply lsum_nonneg. intros x Hx. apply In_zseq in Hx. auto. Qed.
Lemma zsum_abs lo hi f : Rabs (zsum lo hi f) <= zsum lo hi (fun i => Rabs (f i)).
Proof. apply lsum_abs. Qed.

(** Only the term i = k survives. *)
Lemma zsum_single lo hi k f : (lo <= k < hi)%Z ->
  zsum lo hi (fun i => if (i =? k)%Z then f i else 0) = f k.
Proof.
  intros H. rewrite (zsum_app lo k hi) by lia. rewrite (zsum_app k (k+1) hi) by lia.
  rewrite (zsum_0 lo k), (zsum_0 (k+1) hi).
  - unfold zsum. rewrite zseq_cons, zseq_nil by lia. simpl. rewrite Z.eqb_refl. lra.
  - intros i Hi. replace (i =? k)%Z with false by lia. auto.
  - intros i Hi. replace (i =? k)%Z with false by lia. auto.
Qed.

Lemma zsum_single_r lo hi k f : (lo <= k < hi)%Z ->
  zsum lo hi (fun i => if (k =? i)%Z then f i else 0) = f k.
Proof.
  intros H. rewrite <- (zsum_single lo hi k f) by auto. apply zsum_ext. intros.
  rewrite (Z.eqb_sym k i). auto.
Qed.

Lemma zsum_single_out lo hi k f : ~ (lo <= k < hi)%Z ->
  zsum lo hi (fun i => if (i =? k)%Z then f i else 0) = 0.
Proof. intros H. apply zsum_0. intros i Hi. replace (i =? k)%Z with false by lia. auto. Qed.

Lemma zsum_shift lo hi d f : zsum (lo + d) (hi + d) f = zsum lo hi (fun i => f (i + d)%Z).
Proof.
  unfold zsum. replace (zseq (lo + d) (hi + d)) with (map (fun i => (i + d)%Z) (zseq lo hi)).
  - rewrite lsum_map. auto.
  - unfold zseq. rewrite map_map. replace (hi + d - (lo + d))%Z with (hi - lo)%Z by lia.
    apply map_ext. intros; lia.
Qed.
