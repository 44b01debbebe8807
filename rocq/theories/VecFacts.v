(** Lemmas on the dense vector kernels of [Vec.v]. *)
From Coq Require Import ZArith Reals List Bool Lia Lra.
From Verif Require Import Num Arr ArrFacts RSum Csc CscSpec CscFacts CscFacts2 Scatter Vec.
Import ListNotations.
Open Scope Z_scope.

(** ** Lists *)
Lemma zlen_combine {A B} (a : list A) (b : list B) : zlen (combine a b) = Z.min (zlen a) (zlen b).
Proof. unfold zlen. rewrite combine_length. lia. Qed.

Lemma zlen_zip {A B C} (f : A -> B -> C) a b : zlen a = zlen b -> zlen (zip f a b) = zlen a.
Proof. intros H. unfold zip. rewrite zlen_map, zlen_combine. lia. Qed.

Lemma zlen_zip3 {A B C D} (f : A -> B -> C -> D) a b c : zlen a = zlen b -> zlen b = zlen c ->
  zlen (zip3 f a b c) = zlen a.
Proof. intros H1 H2. unfold zip3. rewrite zlen_zip; rewrite zlen_combine; lia. Qed.

Lemma znth_cons {A} (d a : A) l i : 0 <= i -> znth d (a :: l) i = if i =? 0 then a else znth d l (i - 1).
Proof.
  intros Hi. unfold znth, zget. destruct (Z.eqb_spec i 0) as [->|Hne].
  - reflexivity.
  - destruct (Z.ltb_spec i 0); [lia|]. destruct (Z.ltb_spec (i - 1) 0); [lia|].
    replace (Z.to_nat i) with (S (Z.to_nat (i - 1))) by lia. reflexivity.
Qed.

Lemma znth_map {A B} (d : B) (d' : A) (f : A -> B) l i : 0 <= i < zlen l -> znth d (map f l) i = f (znth d' l i).
Proof.
  revert i. induction l as [|a l IH]; intros i Hi.
  - unfold zlen in Hi; cbn [length Z.of_nat] in Hi. lia.
  - rewrite zlen_cons in Hi. cbn [map]. rewrite !znth_cons by lia. destruct (Z.eqb_spec i 0); auto. apply IH. lia.
Qed.

Lemma znth_combine {A B} (d : A) (d' : B) (a : list A) (b : list B) i : zlen a = zlen b -> 0 <= i < zlen a ->
  znth (d, d') (combine a b) i = (znth d a i, znth d' b i).
Proof.
  revert b i. induction a as [|x a IH]; intros b i E Hi.
  - unfold zlen in Hi; cbn [length Z.of_nat] in Hi. lia.
  - destruct b as [|y b]. { rewrite zlen_cons in E; unfold zlen in E; cbn [length Z.of_nat] in E; unfold zlen in *. pose proof (zlen_nonneg a). lia. }
    rewrite !zlen_cons in E. rewrite zlen_cons in Hi. cbn [combine]. rewrite !znth_cons by lia.
    destruct (Z.eqb_spec i 0); auto. apply IH; lia.
Qed.

Lemma znth_zip {A B C} (d : C) (da : A) (db : B) (f : A -> B -> C) a b i : zlen a = zlen b -> 0 <= i < zlen a ->
  znth d (zip f a b) i = f (znth da a i) (znth db b i).
Proof.
  intros E Hi. unfold zip. rewrite (znth_map d (da, db)) by (rewrite zlen_combine; lia).
  rewrite znth_combine by lia. auto.
Qed.

Lemma znth_zip3 {A B C D} (d : D) (da : A) (db : B) (dc : C) (f : A -> B -> C -> D) a b c i :
  zlen a = zlen b -> zlen b = zlen c -> 0 <= i < zlen a ->
  znth d (zip3 f a b c) i = f (znth da a i) (znth db b i) (znth dc c i).
Proof.
  intros E1 E2 Hi. unfold zip3. rewrite (znth_zip d (da, db) dc) by (rewrite zlen_combine; lia).
  rewrite znth_combine by lia. auto.
Qed.

Lemma znth_app {A} (d : A) a b i : 0 <= i -> znth d (a ++ b) i = if i <? zlen a then znth d a i else znth d b (i - zlen a).
Proof.
  revert i. induction a as [|x a IH]; intros i Hi.
  - rewrite zlen_nil. cbn [app]. destruct (Z.ltb_spec i 0); [lia|]. rewrite Z.sub_0_r. auto.
  - cbn [app]. rewrite zlen_cons, !znth_cons by lia. pose proof (zlen_nonneg a).
    destruct (Z.eqb_spec i 0) as [->|]. { destruct (Z.ltb_spec 0 (1 + zlen a)); auto; lia. }
    rewrite IH by lia. destruct (Z.ltb_spec (i - 1) (zlen a)), (Z.ltb_spec i (1 + zlen a)); try lia; auto.
    f_equal; lia.
Qed.

Lemma znth_firstn {A} (d : A) a n i : 0 <= i < Z.of_nat n -> znth d (firstn n a) i = znth d a i.
Proof.
  revert a i. induction n; intros a i Hi; [lia|]. destruct a as [|x a]; auto. cbn [firstn].
  rewrite !znth_cons by lia. destruct (Z.eqb_spec i 0); auto. apply IHn. lia.
Qed.

Lemma znth_skipn {A} (d : A) a n i : 0 <= i -> znth d (skipn n a) i = znth d a (Z.of_nat n + i).
Proof.
  revert a i. induction n; intros a i Hi.
  - cbn [skipn]. f_equal.
  - destruct a as [|x a]. { cbn [skipn]. rewrite !znth_out; auto; unfold zlen; cbn [length Z.of_nat]; lia. }
    cbn [skipn]. rewrite IHn by lia. rewrite (znth_cons d x) by lia.
    destruct (Z.eqb_spec (Z.of_nat (S n) + i) 0); [lia|]. f_equal. lia.
Qed.

Lemma zlen_firstn {A} (a : list A) n : 0 <= n <= zlen a -> zlen (firstn (Z.to_nat n) a) = n.
Proof. unfold zlen. rewrite firstn_length. lia. Qed.
Lemma zlen_skipn {A} (a : list A) n : 0 <= n <= zlen a -> zlen (skipn (Z.to_nat n) a) = zlen a - n.
Proof. unfold zlen. rewrite skipn_length. lia. Qed.

(** ** The loops *)
Lemma v1_ok {X A C} (x : list X) (f : A -> C) a : zlen x = zlen a -> v1 x f a = Some (map f a).
Proof. intros H. unfold v1. rewrite H, Z.eqb_refl. auto. Qed.
Lemma v2_ok {X A B C} (x : list X) (f : A -> B -> C) a b : zlen x = zlen a -> zlen a = zlen b ->
  v2 x f a b = Some (zip f a b).
Proof. intros H1 H2. unfold v2. rewrite H1, <- H2, Z.eqb_refl. auto. Qed.
Lemma v3_ok {X A B C D} (x : list X) (f : A -> B -> C -> D) a b c : zlen x = zlen a -> zlen a = zlen b -> zlen b = zlen c ->
  v3 x f a b c = Some (zip3 f a b c).
Proof. intros H1 H2 H3. unfold v3. rewrite H1, H2, <- H3, Z.eqb_refl. auto. Qed.

Lemma v1_inv {X A C} (x : list X) (f : A -> C) a r : v1 x f a = Some r -> r = map f a /\ zlen x = zlen a.
Proof. unfold v1. destruct (Z.eqb_spec (zlen x) (zlen a)); intros E; inversion E; auto. Qed.
Lemma v2_inv {X A B C} (x : list X) (f : A -> B -> C) a b r : v2 x f a b = Some r ->
  r = zip f a b /\ zlen x = zlen a /\ zlen a = zlen b.
Proof.
  unfold v2. destruct (Z.eqb_spec (zlen x) (zlen a)); cbn [andb]; [|discriminate].
  destruct (Z.eqb_spec (zlen a) (zlen b)); intros E; inversion E; auto.
Qed.
Lemma v3_inv {X A B C D} (x : list X) (f : A -> B -> C -> D) a b c r : v3 x f a b c = Some r ->
  r = zip3 f a b c /\ zlen x = zlen a /\ zlen a = zlen b /\ zlen b = zlen c.
Proof.
  unfold v3. destruct (Z.eqb_spec (zlen x) (zlen a)); cbn [andb]; [|discriminate].
  destruct (Z.eqb_spec (zlen a) (zlen b)); cbn [andb]; [|discriminate].
  destruct (Z.eqb_spec (zlen b) (zlen c)); intros E; inversion E; auto.
Qed.

(** ** Views *)
Lemma view_ok {A} (d : A) (a : list A) h n : 0 <= h -> 0 <= n -> h + n <= zlen a ->
  exists v, view a h n = Some v /\ zlen v = n /\ forall i, 0 <= i < n -> znth d v i = znth d a (h + i).
Proof.
  intros Hh Hn HL. unfold view.
  replace ((0 <=? h) && (0 <=? n) && (h + n <=? zlen a)) with true by lia.
  eexists; split; [reflexivity|]. split.
  - rewrite zlen_firstn; auto. rewrite zlen_skipn; lia.
  - intros i Hi. rewrite znth_firstn by lia. rewrite znth_skipn by lia. f_equal. lia.
Qed.

Lemma view_inv {A} (a : list A) h n v : view a h n = Some v ->
  0 <= h /\ 0 <= n /\ h + n <= zlen a /\ zlen v = n /\ forall d i, 0 <= i < n -> znth d v i = znth d a (h + i).
Proof.
  intros E. unfold view in E. destruct ((0 <=? h) && (0 <=? n) && (h + n <=? zlen a)) eqn:Eb; [|discriminate].
  assert (H1 : 0 <= h) by lia. assert (H2 : 0 <= n) by lia. assert (H3 : h + n <= zlen a) by lia.
  inversion E; subst v. repeat split; auto.
  - rewrite zlen_firstn; auto. rewrite zlen_skipn; lia.
  - intros d i Hi. rewrite znth_firstn by lia. rewrite znth_skipn by lia. f_equal. lia.
Qed.

Lemma view_all {A} (a : list A) : view a 0 (zlen a) = Some a.
Proof.
  unfold view. pose proof (zlen_nonneg a). replace ((0 <=? 0) && (0 <=? zlen a) && (0 + zlen a <=? zlen a)) with true by lia.
  cbn [Z.to_nat skipn]. f_equal. unfold zlen. rewrite Nat2Z.id. apply firstn_all.
Qed.

Lemma view_write_ok {A} (d : A) (a : list A) h n v : 0 <= h -> 0 <= n -> h + n <= zlen a -> zlen v = n ->
  exists r, view_write a h n v = Some r /\ zlen r = zlen a /\
    forall i, 0 <= i < zlen a -> znth d r i = if (h <=? i) && (i <? h + n) then znth d v (i - h) else znth d a i.
Proof.
  intros Hh Hn HL Hv. unfold view_write.
  replace ((0 <=? h) && (0 <=? n) && (h + n <=? zlen a) && (zlen v =? n)) with true by lia.
  eexists; split; [reflexivity|]. split.
  - rewrite !zlen_app, zlen_firstn, zlen_skipn by lia. lia.
  - intros i Hi. rewrite znth_app by lia. rewrite zlen_firstn by lia.
    destruct (Z.ltb_spec i h).
    + rewrite znth_firstn by lia. replace (h <=? i) with false by lia. auto.
    + rewrite znth_app by lia. rewrite Hv. replace (h <=? i) with true by lia. cbn [andb].
      destruct (Z.ltb_spec (i - h) n), (Z.ltb_spec i (h + n)); try lia; auto.
      rewrite znth_skipn by lia. f_equal. lia.
Qed.

Lemma view_write_inv {A} (a : list A) h n v r : view_write a h n v = Some r ->
  0 <= h /\ 0 <= n /\ h + n <= zlen a /\ zlen v = n /\ zlen r = zlen a /\
  forall d i, 0 <= i < zlen a -> znth d r i = if (h <=? i) && (i <? h + n) then znth d v (i - h) else znth d a i.
Proof.
  intros E. pose proof E as E0. unfold view_write in E.
  destruct ((0 <=? h) && (0 <=? n) && (h + n <=? zlen a) && (zlen v =? n)) eqn:Eb; [|discriminate].
  assert (H1 : 0 <= h) by lia. assert (H2 : 0 <= n) by lia. assert (H3 : h + n <= zlen a) by lia.
  assert (H4 : zlen v = n) by lia.
  split; auto. split; auto. split; auto. split; auto. split.
  - inversion E. rewrite !zlen_app, zlen_firstn, zlen_skipn by lia. lia.
  - intros d i Hi. destruct (view_write_ok d a h n v) as (r' & Er & _ & V); auto. rewrite Er in E0. inversion E0; subst. auto.
Qed.

(** Overwriting all of an array of the same length. *)
Lemma view_write_all {A} (a v : list A) : zlen v = zlen a -> view_write a 0 (zlen v) v = Some v.
Proof.
  intros E. unfold view_write. pose proof (zlen_nonneg a).
  replace ((0 <=? 0) && (0 <=? zlen v) && (0 + zlen v <=? zlen a) && (zlen v =? zlen v)) with true by lia.
  cbn [Z.to_nat firstn app]. rewrite Z.add_0_l, E. unfold zlen. rewrite Nat2Z.id, skipn_all, app_nil_r. auto.
Qed.

(** ** Folds over the reals *)
Lemma fold_sum_acc (l : list R) (a : R) : fold_left (fun s t => @nadd Rops s t) l a = (a + lsum (fun x => x) l)%R.
Proof. revert a. induction l as [|x l IH]; intros a; cbn [fold_left lsum]; [lra|]. rewrite IH. simpl. lra. Qed.

Lemma lsum_zsum (f : R -> R) (l : list R) : lsum f l = zsum 0 (zlen l) (fun i => f (rnth l i)).
Proof.
  unfold zsum. induction l as [|a l IH] using rev_ind.
  - reflexivity.
  - rewrite zlen_app, zlen_cons. change (zlen (@nil R)) with 0. rewrite Z.add_0_r, zseq_snoc by apply zlen_nonneg.
    rewrite !lsum_app. rewrite IH. f_equal.
    + apply lsum_ext. intros i Hi. apply In_zseq in Hi. unfold rnth. rewrite znth_app by lia.
      destruct (Z.ltb_spec i (zlen l)); [auto|lia].
    + cbn [lsum]. unfold rnth. rewrite znth_app by apply zlen_nonneg.
      destruct (Z.ltb_spec (zlen l) (zlen l)); [lia|]. rewrite Z.sub_diag, znth_cons by lia. auto.
Qed.

Lemma max_step_R a b : @max_step Rops a b = Rmax a (Rabs b).
Proof.
  unfold max_step. rewrite !c_absval_R. simpl. destruct (Rltb a (Rabs b)) eqn:E.
  - apply Rltb_iff in E. rewrite Rmax_right; lra.
  - apply Rltb_niff in E. rewrite Rmax_left; lra.
Qed.

Lemma fold_max_acc (l : list R) (a : R) : (0 <= a)%R ->
  let r := fold_left (@max_step Rops) l a in
  (a <= r)%R /\ (forall v, In v l -> (Rabs v <= r)%R) /\ (r = a \/ exists v, In v l /\ r = Rabs v).
Proof.
  revert a. induction l as [|x l IH]; intros a Ha; cbn [fold_left].
  - split; [lra|]. split; [simpl; tauto|]. auto.
  - rewrite max_step_R. destruct (IH (Rmax a (Rabs x))) as (H1 & H2 & H3).
    { eapply Rle_trans; [apply Ha|apply Rmax_l]. }
    pose proof (Rmax_l a (Rabs x)). pose proof (Rmax_r a (Rabs x)).
    split; [lra|]. split.
    + intros v [->|Hv]; [lra|auto].
    + destruct H3 as [H3|(v & Hv & H3)].
      * rewrite H3. unfold Rmax. destruct (Rle_dec a (Rabs x)); [right; exists x; simpl; auto|auto].
      * right. exists v. simpl. auto.
Qed.

Lemma In_rnth (l : list R) v : In v l <-> exists i, 0 <= i < zlen l /\ v = rnth l i.
Proof.
  unfold rnth. induction l as [|a l IH].
  - split; [intros []|]. intros (i & Hi & _). unfold zlen in Hi; cbn [length Z.of_nat] in Hi. lia.
  - rewrite zlen_cons. cbn [In]. rewrite IH. split.
    + intros [->|(i & Hi & ->)].
      * exists 0. pose proof (zlen_nonneg l). split; [lia|]. rewrite znth_cons by lia. auto.
      * exists (i + 1). split; [lia|]. rewrite znth_cons by lia. destruct (Z.eqb_spec (i + 1) 0); [lia|].
        f_equal. lia.
    + intros (i & Hi & ->). rewrite znth_cons by lia. destruct (Z.eqb_spec i 0); [auto|]. right. exists (i - 1). split; [lia|auto].
Qed.

(** The set of the first n values of a function. *)
Definition vals (n : Z) (f : Z -> R) (v : R) : Prop := exists i, 0 <= i < n /\ v = f i.

Lemma vf_norm_inf_spec (v : list R) : is_maxabs (vals (zlen v) (rnth v)) (@vf_norm_inf Rops v).
Proof.
  unfold vf_norm_inf. destruct (fold_max_acc v (@n0 Rops)) as (H1 & H2 & H3); rewrite n0_R in *; [lra|].
  split; [exact H1|]. split.
  - intros x (i & Hi & ->). apply H2. apply In_rnth. eauto.
  - destruct H3 as [H3|(x & Hx & H3)]; [auto|]. right. apply In_rnth in Hx as (i & Hi & ->). exists (rnth v i). split; auto. exists i; auto.
Qed.

Lemma vals_ext n f g : (forall i, 0 <= i < n -> f i = g i) -> forall v, vals n f v <-> vals n g v.
Proof. intros H v. split; intros (i & Hi & ->); exists i; split; auto. symmetry; auto. Qed.

Lemma vf_scaled_norm_inf_spec (S v : list R) : zlen S = zlen v ->
  exists r, @vf_scaled_norm_inf Rops S v = Some r /\ is_maxabs (vals (zlen v) (fun i => rnth S i * rnth v i)%R) r.
Proof.
  intros E. unfold vf_scaled_norm_inf. change (car Rops) with R. rewrite v2_ok by lia.
  eexists; split; [reflexivity|]. eapply is_maxabs_ext; [|apply vf_norm_inf_spec].
  rewrite zlen_zip by auto. rewrite E. apply vals_ext. intros i Hi. unfold rnth. rewrite (znth_zip _ 0%R 0%R) by lia. auto.
Qed.

Lemma vf_dot_prod_spec (a b : list R) : zlen a = zlen b ->
  @vf_dot_prod Rops a b = Some (zsum 0 (zlen a) (fun i => rnth a i * rnth b i)%R).
Proof.
  intros E. unfold vf_dot_prod. change (car Rops) with R. rewrite v2_ok by lia. f_equal.
  etransitivity; [apply fold_sum_acc|]. rewrite n0_R, lsum_zsum, zlen_zip by auto. rewrite Rplus_0_l.
  apply zsum_ext. intros i Hi. unfold rnth. rewrite (znth_zip _ 0%R 0%R) by lia. auto.
Qed.

Lemma vf_dot_prod_signed_spec (a b : list R) sg : zlen a = zlen b ->
  @vf_dot_prod_signed Rops a b sg = Some (zsum 0 (zlen a) (fun i => rnth a i *
      (if sg =? 1 then Rmax (rnth b i) 0 else if sg =? -1 then Rmin (rnth b i) 0 else rnth b i))%R).
Proof.
  intros E. unfold vf_dot_prod_signed. destruct (sg =? 1); [|destruct (sg =? -1)].
  1,2: change (car Rops) with R; rewrite v2_ok by lia; f_equal;
    (etransitivity; [apply fold_sum_acc|]); rewrite n0_R, lsum_zsum, zlen_zip by auto; rewrite Rplus_0_l;
    apply zsum_ext; intros i Hi; unfold rnth; rewrite (znth_zip _ 0%R 0%R) by lia; rewrite ?c_max_R, ?c_min_R; auto.
  apply vf_dot_prod_spec; auto.
Qed.

Lemma vf_norm_1_spec (a : list R) : @vf_norm_1 Rops a = zsum 0 (zlen a) (fun i => Rabs (rnth a i)).
Proof.
  unfold vf_norm_1.
  assert (HH : forall l s, fold_left (fun s v => @nadd Rops s (c_absval v)) l s = (s + lsum Rabs l)%R).
  { induction l as [|x l IH]; intros s; cbn [fold_left lsum]; [lra|]. rewrite IH, c_absval_R. simpl. lra. }
  etransitivity; [apply HH|]. rewrite n0_R, lsum_zsum. lra.
Qed.

Lemma forallb_zip {A B} (f : A -> B -> bool) a b (da : A) (db : B) : zlen a = zlen b ->
  (forallb (fun b => b) (zip f a b) = true <-> forall i, 0 <= i < zlen a -> f (znth da a i) (znth db b i) = true).
Proof.
  revert b. induction a as [|x a IH]; intros b E.
  - split; [|reflexivity]. intros _ i Hi. unfold zlen in Hi; cbn [length Z.of_nat] in Hi. lia.
  - destruct b as [|y b]. { rewrite zlen_cons in E; unfold zlen in E; cbn [length Z.of_nat] in E; unfold zlen in *. pose proof (zlen_nonneg a). lia. }
    rewrite !zlen_cons in E. unfold zip in *. cbn [combine map forallb fst snd]. rewrite andb_true_iff, IH by lia.
    rewrite zlen_cons. pose proof (zlen_nonneg a). split.
    + intros (H1 & H2) i Hi. rewrite !znth_cons by lia. destruct (Z.eqb_spec i 0); auto. apply H2. lia.
    + intros HH. split.
      * specialize (HH 0 ltac:(lia)). rewrite !znth_cons in HH by lia. auto.
      * intros i Hi. specialize (HH (i + 1) ltac:(lia)). rewrite !znth_cons in HH by lia.
        destruct (Z.eqb_spec (i + 1) 0); [lia|]. replace (i + 1 - 1) with i in HH by lia. auto.
Qed.

Lemma vf_all_leq_spec (l u : list R) : zlen l = zlen u ->
  exists b, @vf_all_leq Rops l u = Some b /\ (b = true <-> forall i, 0 <= i < zlen l -> (rnth l i <= rnth u i)%R).
Proof.
  intros E. unfold vf_all_leq. change (car Rops) with R. rewrite v2_ok by lia. eexists; split; [reflexivity|].
  rewrite (forallb_zip _ l u 0%R 0%R) by auto. split; intros H i Hi; specialize (H i Hi).
  - apply negb_true_iff in H. apply Rltb_niff in H. exact H.
  - apply negb_true_iff. apply Rltb_niff. exact H.
Qed.
