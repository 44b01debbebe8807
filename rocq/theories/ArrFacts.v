(** Facts about arrays and loops. *)
From Coq Require Import ZArith List Bool Lia Permutation.
From Verif Require Import Arr.
Import ListNotations.
Open Scope Z_scope.

(** Reading with a default value, for specifications (always used inside the array). *)
Definition znth {A} (d : A) (a : list A) (i : Z) : A :=
  match zget a i with Some v => v | None => d end.

(** The integers lo, lo+1, ..., hi-1. *)
Definition zseq (lo hi : Z) : list Z :=
  map (fun k => lo + Z.of_nat k) (seq 0 (Z.to_nat (hi - lo))).

Lemma zlen_nonneg {A} (a : list A) : 0 <= zlen a.
Proof. unfold zlen; lia. Qed.

Lemma zget_Some {A} (d : A) (a : list A) i :
  0 <= i < zlen a -> zget a i = Some (znth d a i).
Proof.
  intros H. unfold znth. destruct (zget a i) eqn:E; auto. exfalso.
  unfold zget in E. destruct (i <? 0) eqn:E1; [lia|].
  apply nth_error_None in E. unfold zlen in H. lia.
Qed.

Lemma zget_None {A} (a : list A) i : ~ (0 <= i < zlen a) -> zget a i = None.
Proof.
  intros H. unfold zget. destruct (i <? 0) eqn:E1; auto.
  apply nth_error_None. unfold zlen in H. lia.
Qed.

Lemma zget_range {A} (a : list A) i v : zget a i = Some v -> 0 <= i < zlen a.
Proof.
  intros H. destruct (Z_le_dec 0 i) as [H1|H1]; [destruct (Z_lt_dec i (zlen a)) as [H2|H2]|]; [lia| |];
  rewrite zget_None in H by lia; discriminate.
Qed.

Lemma zget_znth {A} (d : A) a i v : zget a i = Some v -> znth d a i = v.
Proof. intros H; unfold znth; rewrite H; auto. Qed.

Lemma length_upd {A} (l : list A) k v : length (upd l k v) = length l.
Proof. revert k; induction l; destruct k; simpl; auto. Qed.

Lemma nth_error_upd_same {A} (l : list A) k v : (k < length l)%nat -> nth_error (upd l k v) k = Some v.
Proof. revert k; induction l; destruct k; simpl; intros; try lia; auto. apply IHl; lia. Qed.

Lemma nth_error_upd_other {A} (l : list A) k k' v : k <> k' -> nth_error (upd l k v) k' = nth_error l k'.
Proof. revert k k'; induction l; destruct k, k'; simpl; intros; try congruence; auto. Qed.

Lemma zset_Some {A} (a : list A) i v :
  0 <= i < zlen a -> zset a i v = Some (upd a (Z.to_nat i) v).
Proof. intros H; unfold zset. replace ((0 <=? i) && (i <? zlen a)) with true by lia. auto. Qed.

Lemma zset_inv {A} (a : list A) i v a' : zset a i v = Some a' ->
  0 <= i < zlen a /\ a' = upd a (Z.to_nat i) v.
Proof.
  unfold zset. destruct ((0 <=? i) && (i <? zlen a)) eqn:E; [|discriminate].
  intros H; inversion H; subst. split; auto. lia.
Qed.

Lemma zlen_upd {A} (a : list A) k v : zlen (upd a k v) = zlen a.
Proof. unfold zlen; rewrite length_upd; auto. Qed.

Lemma zset_len {A} (a : list A) i v a' : zset a i v = Some a' -> zlen a' = zlen a.
Proof. intros H; apply zset_inv in H as [_ ->]. apply zlen_upd. Qed.

Lemma zget_upd {A} (a : list A) i j v : 0 <= i < zlen a ->
  zget (upd a (Z.to_nat i) v) j = if j =? i then Some v else zget a j.
Proof.
  intros H. unfold zget, zlen in *. destruct (j =? i) eqn:E.
  - apply Z.eqb_eq in E; subst. destruct (i <? 0) eqn:E1; [lia|].
    apply nth_error_upd_same; lia.
  - destruct (j <? 0) eqn:E1; auto. apply nth_error_upd_other; lia.
Qed.

Lemma znth_upd {A} (d : A) (a : list A) i j v : 0 <= i < zlen a ->
  znth d (upd a (Z.to_nat i) v) j = if j =? i then v else znth d a j.
Proof. intros H. unfold znth. rewrite zget_upd by auto. destruct (j =? i); auto. Qed.

Lemma znth_out {A} (d : A) a i : ~ (0 <= i < zlen a) -> znth d a i = d.
Proof. intros H. unfold znth. rewrite zget_None by auto. auto. Qed.

Lemma zlen_zrep {A} n (v : A) : 0 <= n -> zlen (zrep n v) = n.
Proof. intros. unfold zlen, zrep. rewrite repeat_length. lia. Qed.

Lemma zlen_zrep_max {A} n (v : A) : zlen (zrep n v) = Z.max n 0.
Proof. intros. unfold zlen, zrep. rewrite repeat_length. lia. Qed.

Lemma znth_zrep {A} (d : A) n v i : 0 <= i < n -> znth d (zrep n v) i = v.
Proof.
  intros H. unfold znth, zget, zrep. destruct (i <? 0) eqn:E; [lia|].
  rewrite nth_error_repeat by lia. auto.
Qed.

Lemma list_ext_znth {A} (d : A) (a b : list A) :
  zlen a = zlen b -> (forall i, 0 <= i < zlen a -> znth d a i = znth d b i) -> a = b.
Proof.
  revert b; induction a as [|x a IH]; destruct b as [|y b]; intros HL H; auto;
    try (unfold zlen in HL; simpl in HL; lia).
  f_equal.
  - specialize (H 0). unfold zlen in H; simpl in H. unfold znth, zget in H; simpl in H. apply H; lia.
  - apply IH. { unfold zlen in *; simpl in *; lia. }
    intros i Hi. specialize (H (i+1)).
    assert (HH : forall (z : A) l, znth d (z :: l) (i+1) = znth d l i).
    { intros. unfold znth, zget. replace (i + 1 <? 0) with false by lia. replace (i <? 0) with false by lia.
      replace (Z.to_nat (i+1)) with (S (Z.to_nat i)) by lia. auto. }
    rewrite !HH in H. apply H. unfold zlen in *; simpl in *; lia.
Qed.

(** *** zseq *)
Lemma zseq_nil lo hi : hi <= lo -> zseq lo hi = [].
Proof. intros. unfold zseq. replace (Z.to_nat (hi - lo)) with 0%nat by lia. auto. Qed.

Lemma zseq_cons lo hi : lo < hi -> zseq lo hi = lo :: zseq (lo + 1) hi.
Proof.
  intros. unfold zseq. replace (Z.to_nat (hi - lo)) with (S (Z.to_nat (hi - (lo + 1)))) by lia.
  simpl. f_equal; [lia|]. rewrite <- seq_shift, map_map. apply map_ext. intros; lia.
Qed.

Lemma zseq_app a b c : a <= b -> b <= c -> zseq a c = zseq a b ++ zseq b c.
Proof.
  intros H1 H2. remember (Z.to_nat (b - a)) as k eqn:E. revert a E H1.
  induction k; intros a E H1.
  - assert (a = b) by lia. subst. rewrite (zseq_nil b b) by lia. auto.
  - rewrite (zseq_cons a c), (zseq_cons a b) by lia. simpl. f_equal. apply IHk; lia.
Qed.

Lemma zseq_snoc lo hi : lo <= hi -> zseq lo (hi + 1) = zseq lo hi ++ [hi].
Proof.
  intros. rewrite (zseq_app lo hi (hi+1)) by lia. f_equal.
  rewrite zseq_cons by lia. rewrite zseq_nil by lia. auto.
Qed.

Lemma In_zseq i lo hi : In i (zseq lo hi) <-> lo <= i < hi.
Proof.
  unfold zseq. rewrite in_map_iff. split.
  - intros [k [<- Hk]]. apply in_seq in Hk. lia.
  - intros H. exists (Z.to_nat (i - lo)). split; [lia|]. apply in_seq. lia.
Qed.

Lemma NoDup_zseq lo hi : NoDup (zseq lo hi).
Proof.
  unfold zseq. apply FinFun.Injective_map_NoDup; [|apply seq_NoDup].
  intros x y H; lia.
Qed.

Lemma length_zseq lo hi : length (zseq lo hi) = Z.to_nat (hi - lo).
Proof. unfold zseq. rewrite map_length, seq_length. auto. Qed.

Lemma zseq_split lo hi i : lo <= i < hi -> zseq lo hi = zseq lo i ++ i :: zseq (i + 1) hi.
Proof. intros. rewrite (zseq_app lo i hi) by lia. f_equal. rewrite zseq_cons by lia. auto. Qed.

Lemma zseq_prefix lo hi done x rest : zseq lo hi = done ++ x :: rest ->
  lo <= x < hi /\ done = zseq lo x /\ rest = zseq (x + 1) hi.
Proof.
  remember (Z.to_nat (hi - lo)) as k eqn:E. revert lo done E.
  induction k; intros lo done E H.
  - rewrite zseq_nil in H by lia. destruct done; discriminate.
  - rewrite zseq_cons in H by lia. destruct done as [|d done]; simpl in H; inversion H; subst.
    + rewrite (zseq_nil x x) by lia. repeat split; auto; lia.
    + apply IHk in H2; [|lia]. destruct H2 as (H2 & -> & ->).
      rewrite (zseq_cons d x) by lia. repeat split; auto; lia.
Qed.

(** *** Monadic folds *)
Fixpoint foldM {X S} (body : X -> S -> option S) (l : list X) (s : S) : option S :=
  match l with
  | [] => Some s
  | x :: t => match body x s with Some s' => foldM body t s' | None => None end
  end.

Lemma foldM_app {X S} (body : X -> S -> option S) l1 l2 s :
  foldM body (l1 ++ l2) s =
  match foldM body l1 s with Some s' => foldM body l2 s' | None => None end.
Proof. revert s; induction l1; simpl; intros; auto. destruct (body a s); auto. Qed.

Lemma for_foldM {S} lo hi (body : Z -> S -> option S) s :
  for_ lo hi body s = foldM body (zseq lo hi) s.
Proof.
  unfold for_. remember (Z.to_nat (hi - lo)) as k eqn:E. revert lo s E.
  induction k; intros lo s E; simpl.
  - rewrite zseq_nil by lia. auto.
  - rewrite zseq_cons by lia. simpl. destruct (body lo s); auto. apply IHk; lia.
Qed.

Lemma foldM_rule {X S} (P : list X -> S -> Prop) (body : X -> S -> option S) l s0 :
  P [] s0 ->
  (forall done x rest s, l = done ++ x :: rest -> P done s ->
     exists s', body x s = Some s' /\ P (done ++ [x]) s') ->
  exists s', foldM body l s0 = Some s' /\ P l s'.
Proof.
  intros H0 Hstep.
  assert (HH : forall rest done s, l = done ++ rest -> P done s ->
    exists s', foldM body rest s = Some s' /\ P l s').
  { induction rest as [|x rest IH]; intros done s El HP.
    - simpl. exists s. rewrite app_nil_r in El. subst. auto.
    - simpl. destruct (Hstep done x rest s El HP) as (s' & -> & HP').
      apply (IH (done ++ [x])); auto. rewrite <- app_assoc. auto. }
  apply (HH l [] s0); auto.
Qed.

Lemma for_rule {S} (P : Z -> S -> Prop) lo hi (body : Z -> S -> option S) s0 :
  lo <= hi ->
  P lo s0 ->
  (forall i s, lo <= i < hi -> P i s -> exists s', body i s = Some s' /\ P (i + 1) s') ->
  exists s', for_ lo hi body s0 = Some s' /\ P hi s'.
Proof.
  intros Hle H0 Hstep. rewrite for_foldM.
  destruct (foldM_rule (fun done s => P (lo + Z.of_nat (length done)) s) body (zseq lo hi) s0) as (s' & E & HP).
  - simpl. replace (lo + 0) with lo by lia. auto.
  - intros done x rest s El HP. apply zseq_prefix in El as (Hx & -> & ->).
    rewrite app_length, length_zseq in *. simpl.
    replace (lo + Z.of_nat (Z.to_nat (x - lo))) with x in HP by lia.
    replace (lo + Z.of_nat (Z.to_nat (x - lo) + 1)) with (x + 1) by lia.
    apply Hstep; auto.
  - exists s'. split; auto. rewrite length_zseq in HP.
    replace (lo + Z.of_nat (Z.to_nat (hi - lo))) with hi in HP by lia. auto.
Qed.

Lemma foldM_ext_in {X S} (f g : X -> S -> option S) l s :
  (forall x s, In x l -> f x s = g x s) -> foldM f l s = foldM g l s.
Proof.
  revert s; induction l; simpl; intros; auto. rewrite H by auto.
  destruct (g a s); auto.
Qed.

Lemma for_ext {S} lo hi (f g : Z -> S -> option S) s :
  (forall i s, lo <= i < hi -> f i s = g i s) -> for_ lo hi f s = for_ lo hi g s.
Proof. intros. rewrite !for_foldM. apply foldM_ext_in. intros x s' Hx. apply In_zseq in Hx. auto. Qed.

Lemma foldM_flat_map {X Y S} (body : Y -> S -> option S) (f : X -> list Y) l s :
  foldM body (flat_map f l) s = foldM (fun x s => foldM body (f x) s) l s.
Proof. revert s; induction l; simpl; intros; auto. rewrite foldM_app. destruct (foldM body (f a) s); auto. Qed.

Lemma foldM_map {X Y S} (body : Y -> S -> option S) (f : X -> Y) l s :
  foldM body (map f l) s = foldM (fun x s => body (f x) s) l s.
Proof. revert s; induction l; simpl; intros; auto. destruct (body (f a) s); auto. Qed.

(** The array is filled by  for i: a[i] = f i. *)
Lemma for_fill {A} (d : A) (f : Z -> A) n (a : list A) :
  0 <= n <= zlen a ->
  exists a', for_ 0 n (fun i a => zset a i (f i)) a = Some a' /\ zlen a' = zlen a /\
    (forall i, znth d a' i = if (0 <=? i) && (i <? n) then f i else znth d a i).
Proof.
  intros Hn.
  destruct (for_rule (fun k (b : list A) => zlen b = zlen a /\
     forall i, znth d b i = if (0 <=? i) && (i <? k) then f i else znth d a i) 0 n
     (fun i a => zset a i (f i)) a) as (a' & E & H1 & H2).
  - lia.
  - split; auto. intros i. replace ((0 <=? i) && (i <? 0)) with false by lia. auto.
  - intros i b Hi (HL & HB). rewrite zset_Some by lia. eexists; split; eauto.
    split; [rewrite zlen_upd; auto|]. intros j. rewrite znth_upd by lia. rewrite HB.
    destruct (j =? i) eqn:Ej.
    + replace ((0 <=? j) && (j <? i + 1)) with true by lia. f_equal; lia.
    + replace ((0 <=? j) && (j <? i + 1)) with ((0 <=? j) && (j <? i)) by lia. auto.
  - eauto.
Qed.

(** for i: a[i] = g i (a[i]) *)
Lemma for_map {A} (d : A) (g : Z -> A -> A) n (a : list A) :
  0 <= n <= zlen a ->
  exists a', for_ 0 n (fun i a => match zget a i with Some v => zset a i (g i v) | None => None end) a = Some a'
    /\ zlen a' = zlen a /\
    (forall i, znth d a' i = if (0 <=? i) && (i <? n) then g i (znth d a i) else znth d a i).
Proof.
  intros Hn.
  destruct (for_rule (fun k (b : list A) => zlen b = zlen a /\
     forall i, znth d b i = if (0 <=? i) && (i <? k) then g i (znth d a i) else znth d a i) 0 n
     (fun i a => match zget a i with Some v => zset a i (g i v) | None => None end) a) as (a' & E & H1 & H2).
  - lia.
  - split; auto. intros i. replace ((0 <=? i) && (i <? 0)) with false by lia. auto.
  - intros i b Hi (HL & HB). rewrite (zget_Some d) by lia. rewrite zset_Some by lia. eexists; split; eauto.
    split; [rewrite zlen_upd; auto|]. intros j. rewrite znth_upd by lia. rewrite !HB.
    destruct (j =? i) eqn:Ej.
    + replace ((0 <=? j) && (j <? i + 1)) with true by lia.
      replace ((0 <=? i) && (i <? i)) with false by lia. assert (j = i) by lia. subst; auto.
    + replace ((0 <=? j) && (j <? i + 1)) with ((0 <=? j) && (j <? i)) by lia. auto.
  - eauto.
Qed.

(** Pose the loop rule for the first loop in the goal. *)
Ltac loop_rule P H :=
  lazymatch goal with
  | |- context [for_ ?lo ?hi ?b ?s] => pose proof (for_rule P lo hi b s) as H
  end.
(** Turn the first loop in the goal into a fold and name its body. *)
Ltac fold_loop b :=
  rewrite for_foldM;
  lazymatch goal with
  | |- context [foldM ?body _ _] => set (b := body)
  end.
