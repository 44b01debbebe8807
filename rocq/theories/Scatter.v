(** The "count, prefix sum, scatter" pattern used to build CSC matrices. *)
From Coq Require Import ZArith Reals List Bool Lia Permutation.
From Verif Require Import Num Arr ArrFacts Csc CscSpec CscFacts CscFacts2.
Import ListNotations.
Open Scope Z_scope.

Definition cnt {X} (b : X -> bool) (l : list X) : Z := zlen (filter b l).

Lemma zlen_cons {X} (a : X) l : zlen (a :: l) = 1 + zlen l.
Proof. unfold zlen. cbn [length]. lia. Qed.
Lemma zlen_nil {X} : zlen (@nil X) = 0. Proof. reflexivity. Qed.
Lemma zlen_app {X} (a b : list X) : zlen (a ++ b) = zlen a + zlen b.
Proof. unfold zlen. rewrite app_length. lia. Qed.
Lemma zlen_map {X Y} (f : X -> Y) l : zlen (map f l) = zlen l.
Proof. unfold zlen. rewrite map_length. auto. Qed.
Lemma zlen_zseq lo hi : zlen (zseq lo hi) = Z.max 0 (hi - lo).
Proof. unfold zlen. rewrite length_zseq. lia. Qed.

Section Cnt.
  Context {X : Type}.
  Implicit Types (b : X -> bool) (l : list X).
  Lemma cnt_nonneg b l : 0 <= cnt b l. Proof. apply zlen_nonneg. Qed.
  Lemma cnt_app b l1 l2 : cnt b (l1 ++ l2) = cnt b l1 + cnt b l2.
  Proof. unfold cnt, zlen. rewrite filter_app, app_length. lia. Qed.
  Lemma cnt_cons b x l : cnt b (x :: l) = (if b x then 1 else 0) + cnt b l.
  Proof. unfold cnt. cbn [filter]. destruct (b x); rewrite ?zlen_cons; lia. Qed.
  Lemma cnt_nil b : cnt b [] = 0. Proof. auto. Qed.
  Lemma cnt_snoc b l x : cnt b (l ++ [x]) = cnt b l + (if b x then 1 else 0).
  Proof. rewrite cnt_app, cnt_cons, cnt_nil. lia. Qed.
  Lemma cnt_le_len b l : cnt b l <= zlen l.
  Proof. induction l; [unfold cnt, zlen; simpl; lia|]. rewrite cnt_cons, zlen_cons. destruct (b a); lia. Qed.
  Lemma cnt_ext b b' l : (forall x, In x l -> b x = b' x) -> cnt b l = cnt b' l.
  Proof. intros H. unfold cnt. f_equal. apply filter_ext_in. auto. Qed.
  Lemma cnt_mono b b' l : (forall x, In x l -> b x = true -> b' x = true) -> cnt b l <= cnt b' l.
  Proof.
    induction l; intros H; [reflexivity|]. rewrite !cnt_cons.
    assert (cnt b l <= cnt b' l) by (apply IHl; simpl in *; auto).
    specialize (H a (or_introl eq_refl)). destruct (b a); [rewrite H by auto; lia|destruct (b' a); lia].
  Qed.
  Lemma cnt_all b l : (forall x, In x l -> b x = true) -> cnt b l = zlen l.
  Proof. induction l; intros H; [reflexivity|]. rewrite cnt_cons, H by (simpl; auto). rewrite IHl by (simpl in *; auto). rewrite zlen_cons; lia. Qed.
  Lemma cnt_none b l : (forall x, In x l -> b x = false) -> cnt b l = 0.
  Proof. induction l; intros H; [reflexivity|]. rewrite cnt_cons, H by (simpl; auto). rewrite IHl by (simpl in *; auto). lia. Qed.
  Lemma cnt_filter b b' l : cnt b (filter b' l) = cnt (fun x => b' x && b x) l.
  Proof. induction l; [reflexivity|]. simpl. rewrite cnt_cons. destruct (b' a); simpl; rewrite ?cnt_cons; lia. Qed.
End Cnt.

Lemma cnt_map {X Y} (b : Y -> bool) (f : X -> Y) l : cnt b (map f l) = cnt (fun x => b (f x)) l.
Proof. induction l; [reflexivity|]. simpl. rewrite !cnt_cons. lia. Qed.

(** Counting loop: w[col x] += 1. *)
Lemma count_loop {X S} (col : X -> Z) (getw : S -> list Z) (body : X -> S -> option S) L s0 n :
  zlen (getw s0) = n ->
  (forall x s, In x L -> zlen (getw s) = n ->
     exists s', body x s = Some s' /\ getw s' = upd (getw s) (Z.to_nat (col x)) (znth 0 (getw s) (col x) + 1)) ->
  (forall x, In x L -> 0 <= col x < n) ->
  exists s', foldM body L s0 = Some s' /\ zlen (getw s') = n /\
    forall j, znth 0 (getw s') j = znth 0 (getw s0) j + cnt (fun x => col x =? j) L.
Proof.
  intros HL Hb Hc.
  destruct (foldM_rule (fun done s => zlen (getw s) = n /\
      forall j, znth 0 (getw s) j = znth 0 (getw s0) j + cnt (fun x => col x =? j) done) body L s0)
    as (s' & E & H1 & H2).
  - split; auto. intros. rewrite cnt_nil. lia.
  - intros done x rest s EL (HLs & HVs). assert (HI : In x L) by (rewrite EL; apply in_or_app; simpl; auto).
    destruct (Hb x s HI HLs) as (s' & E & Ew). exists s'. split; auto. rewrite Ew.
    specialize (Hc x HI). split; [rewrite zlen_upd; auto|]. intros j. rewrite znth_upd by lia.
    rewrite cnt_snoc, !HVs. rewrite (Z.eqb_sym (col x) j). destruct (j =? col x) eqn:Ej; [|lia].
    assert (j = col x) by lia. subst. lia.
  - eauto.
Qed.

(** Integer prefix sums. *)
Definition psum (f : Z -> Z) (j : Z) : Z := fold_right Z.add 0 (map f (zseq 0 j)).

Lemma psum_0 f : psum f 0 = 0. Proof. reflexivity. Qed.
Lemma psum_succ f j : 0 <= j -> psum f (j + 1) = psum f j + f j.
Proof.
  intros. unfold psum. rewrite zseq_snoc by lia. rewrite map_app. simpl.
  assert (HH : forall l a, fold_right Z.add 0 (l ++ [a]) = fold_right Z.add 0 l + a).
  { induction l; simpl; intros; [lia|]. rewrite IHl. lia. }
  apply HH.
Qed.
Lemma psum_ext f g j : (forall i, 0 <= i < j -> f i = g i) -> psum f j = psum g j.
Proof.
  intros H. unfold psum. f_equal. apply map_ext_in. intros i Hi. apply In_zseq in Hi. auto.
Qed.

(** Items with column below j: this is where column j starts. *)
Definition start {X} (col : X -> Z) (L : list X) (j : Z) : Z := cnt (fun x => col x <? j) L.

Section Start.
  Context {X : Type} (col : X -> Z) (L : list X).
  Lemma start_succ j : start col L (j + 1) = start col L j + cnt (fun x => col x =? j) L.
  Proof.
    unfold start. induction L; [reflexivity|]. rewrite !cnt_cons.
    destruct (col a <? j + 1) eqn:E1, (col a <? j) eqn:E2, (col a =? j) eqn:E3; lia.
  Qed.
  Lemma start_mono i j : i <= j -> start col L i <= start col L j.
  Proof. intros H. unfold start. apply cnt_mono. intros x _ Hx. lia. Qed.
  Lemma start_0 : (forall x, In x L -> 0 <= col x) -> start col L 0 = 0.
  Proof. intros H. unfold start. apply cnt_none. intros x Hx. specialize (H x Hx). lia. Qed.
  Lemma start_n n : (forall x, In x L -> col x < n) -> start col L n = zlen L.
  Proof. intros H. unfold start. apply cnt_all. intros x Hx. specialize (H x Hx). lia. Qed.
  Lemma start_le j : start col L j <= zlen L. Proof. apply cnt_le_len. Qed.
  Lemma start_nonneg j : 0 <= start col L j. Proof. apply cnt_nonneg. Qed.
  Lemma psum_start : (forall x, In x L -> 0 <= col x) -> forall j, 0 <= j ->
    psum (fun i => cnt (fun x => col x =? i) L) j = start col L j.
  Proof.
    intros H. apply natlike_ind.
    - rewrite start_0; auto.
    - intros j Hj IH. unfold Z.succ. rewrite psum_succ, start_succ by lia. lia.
  Qed.
End Start.

(** csc_cumsum *)
Lemma csc_cumsum_spec p c n : 0 <= n -> n + 1 <= zlen p -> n <= zlen c ->
  exists p' c', csc_cumsum p c n = Some (p', c', psum (fun i => znth 0 c i) n) /\
    zlen p' = zlen p /\ zlen c' = zlen c /\
    (forall j, 0 <= j <= n -> znth 0 p' j = psum (fun i => znth 0 c i) j) /\
    (forall j, 0 <= j < n -> znth 0 c' j = psum (fun i => znth 0 c i) j) /\
    (forall j, n < j -> znth 0 p' j = znth 0 p j).
Proof.
  intros Hn Hp Hc. unfold csc_cumsum.
  loop_rule (fun i (s : list Z * list Z * Z) => let '(p', c', nz) := s in
      zlen p' = zlen p /\ zlen c' = zlen c /\ nz = psum (fun i => znth 0 c i) i /\
      (forall j, 0 <= j < i -> znth 0 p' j = psum (fun i => znth 0 c i) j /\ znth 0 c' j = psum (fun i => znth 0 c i) j) /\
      (forall j, i <= j -> znth 0 c' j = znth 0 c j /\ znth 0 p' j = znth 0 p j)) HLoop.
  destruct HLoop
    as ([[p' c'] nz] & -> & HLp & HLc & Hnz & HV & HU).
  - auto.
  - repeat split; auto; lia.
  - intros i [[p1 c1] nz] Hi (HLp & HLc & Hnz & HV & HU).
    rewrite zset_Some by lia. rewrite (zget_Some 0 c1) by lia. cbv zeta.
    rewrite (zget_Some 0) by (rewrite zlen_upd; lia). rewrite znth_upd by lia. rewrite Z.eqb_refl.
    rewrite zset_Some by lia. eexists; split; [reflexivity|]. cbv beta iota.
    rewrite !zlen_upd. split; auto. split; auto. split.
    { rewrite psum_succ by lia. rewrite (proj1 (HU i ltac:(lia))). lia. }
    split.
    + intros j Hj. rewrite !znth_upd by lia. destruct (j =? i) eqn:E.
      * assert (j = i) by lia. subst. auto.
      * apply HV; lia.
    + intros j Hj. rewrite !znth_upd by lia. replace (j =? i) with false by lia. apply HU; lia.
  - rewrite zset_Some by lia. eexists; eexists; split; [rewrite Hnz; reflexivity|].
    rewrite zlen_upd. split; auto. split; auto. split; [|split].
    + intros j Hj. rewrite znth_upd by lia. destruct (j =? n) eqn:E.
      * assert (j = n) by lia. subst. auto.
      * apply HV; lia.
    + intros j Hj. apply HV; lia.
    + intros j Hj. rewrite znth_upd by lia. replace (j =? n) with false by lia. apply HU; lia.
Qed.

Section Slots.
  Context {K : NumOps}.
  Lemma slots_nil (Ci : list Z) (Cx : list K) lo hi : hi <= lo -> slots Ci Cx lo hi = [].
  Proof. intros. unfold slots. rewrite zseq_nil by auto. auto. Qed.
  Lemma slots_snoc (Ci : list Z) (Cx : list K) lo hi : lo <= hi ->
    slots Ci Cx lo (hi + 1) = slots Ci Cx lo hi ++ [(znth 0 Ci hi, znth n0 Cx hi)].
  Proof. intros. unfold slots. rewrite zseq_snoc by auto. rewrite map_app. auto. Qed.
  Lemma slots_ext (Ci Ci' : list Z) (Cx Cx' : list K) lo hi :
    (forall s, lo <= s < hi -> znth 0 Ci s = znth 0 Ci' s /\ znth n0 Cx s = znth n0 Cx' s) ->
    slots Ci Cx lo hi = slots Ci' Cx' lo hi.
  Proof.
    intros H. unfold slots. apply map_ext_in. intros s Hs. apply In_zseq in Hs.
    destruct (H s Hs) as [-> ->]. auto.
  Qed.
End Slots.

Lemma map_firstn_app {X Y} (f : X -> Y) l1 l2 : map f (l1 ++ l2) = map f l1 ++ map f l2.
Proof. apply map_app. Qed.

Section Scatter.
  Context {K : NumOps} {X S : Type}.
  Variable (col row key : X -> Z) (val : X -> K).
  Variable (get : S -> list Z * list Z * list K * option (list Z)).
  Definition ent (x : X) : Z * K := (row x, val x).

  (** Slot of an item that comes after the items [pre]. *)
  Definition slot_of (L pre : list X) (x : X) : Z := start col L (col x) + cnt (fun y => col y =? col x) pre.

  Lemma scatter_loop (body : X -> S -> option S) (L : list X) s0 w0 Ci0 Cx0 M0 n :
    get s0 = (w0, Ci0, Cx0, M0) ->
    (forall x, In x L -> 0 <= col x < n) -> n <= zlen w0 ->
    (forall j, 0 <= j < n -> znth 0 w0 j = start col L j) ->
    zlen L <= zlen Ci0 -> zlen L <= zlen Cx0 ->
    (forall t, M0 = Some t -> NoDup (map key L) /\ forall x, In x L -> 0 <= key x < zlen t) ->
    (forall x s w Ci Cx M, In x L -> get s = (w, Ci, Cx, M) -> zlen w = zlen w0 -> zlen Ci = zlen Ci0 -> zlen Cx = zlen Cx0 ->
       0 <= znth 0 w (col x) < zlen L ->
       match M0, M with None, None => True | Some t0, Some t => zlen t = zlen t0 | _, _ => False end ->
       exists s', body x s = Some s' /\
         get s' = (upd w (Z.to_nat (col x)) (znth 0 w (col x) + 1),
                   upd Ci (Z.to_nat (znth 0 w (col x))) (row x),
                   upd Cx (Z.to_nat (znth 0 w (col x))) (val x),
                   option_map (fun t => upd t (Z.to_nat (key x)) (znth 0 w (col x))) M)) ->
    exists s' w Ci Cx M, foldM body L s0 = Some s' /\ get s' = (w, Ci, Cx, M) /\
      zlen w = zlen w0 /\ zlen Ci = zlen Ci0 /\ zlen Cx = zlen Cx0 /\
      (forall j, 0 <= j < n -> znth 0 w j = start col L (j + 1)) /\
      (forall j, ~ 0 <= j < n -> znth 0 w j = znth 0 w0 j) /\
      (forall j, 0 <= j < n ->
         slots Ci Cx (start col L j) (start col L (j + 1)) = map ent (filter (fun x => col x =? j) L)) /\
      match M0, M with
      | None, None => True
      | Some t0, Some t => zlen t = zlen t0 /\
          (forall pre x post, L = pre ++ x :: post -> znth 0 t (key x) = slot_of L pre x) /\
          (forall k, (forall x, In x L -> key x <> k) -> znth 0 t k = znth 0 t0 k)
      | _, _ => False
      end.
  Proof.
    intros Hg Hc Hn Hw HCi HCx HM Hb.
    set (Inv := fun (done : list X) (s : S) => exists w Ci Cx M, get s = (w, Ci, Cx, M) /\
      zlen w = zlen w0 /\ zlen Ci = zlen Ci0 /\ zlen Cx = zlen Cx0 /\
      (forall j, 0 <= j < n -> znth 0 w j = start col L j + cnt (fun x => col x =? j) done) /\
      (forall j, ~ 0 <= j < n -> znth 0 w j = znth 0 w0 j) /\
      (forall j, 0 <= j < n ->
         slots Ci Cx (start col L j) (start col L j + cnt (fun x => col x =? j) done)
           = map ent (filter (fun x => col x =? j) done)) /\
      match M0, M with
      | None, None => True
      | Some t0, Some t => zlen t = zlen t0 /\
          (forall pre x post, done = pre ++ x :: post -> znth 0 t (key x) = slot_of L pre x) /\
          (forall k, (forall x, In x done -> key x <> k) -> znth 0 t k = znth 0 t0 k)
      | _, _ => False
      end).
    destruct (foldM_rule Inv body L s0) as (s' & E & HI).
    - exists w0, Ci0, Cx0, M0. split; auto. split; auto. split; auto. split; auto. split.
      { intros j Hj. rewrite cnt_nil, Hw by auto. lia. }
      split; auto. split.
      { intros j Hj. rewrite cnt_nil. rewrite slots_nil by lia. auto. }
      destruct M0; auto. split; auto. split; auto. intros [|y pre] z post H; discriminate.
    - intros done x rest s EL (w & Ci & Cx & M & Hgs & Lw & LCi & LCx & Vw & Uw & VS & VM).
      assert (HI : In x L) by (rewrite EL; apply in_or_app; simpl; auto).
      pose proof (Hc x HI) as Hcx.
      assert (Hcnt : forall j, cnt (fun x => col x =? j) L =
          cnt (fun x => col x =? j) done + (if col x =? j then 1 else 0) + cnt (fun x => col x =? j) rest).
      { intros j. rewrite EL, cnt_app, cnt_cons. lia. }
      pose proof (fun j => cnt_nonneg (fun x => col x =? j) rest) as Hr.
      pose proof (fun j => cnt_nonneg (fun x => col x =? j) done) as Hd.
      pose proof (start_succ col L) as HSS. pose proof (start_le col L) as HSL.
      pose proof (start_nonneg col L) as HSN.
      assert (Hs : start col L (col x) <= znth 0 w (col x) < start col L (col x + 1)).
      { rewrite Vw by auto. rewrite HSS, Hcnt, Z.eqb_refl. specialize (Hr (col x)). specialize (Hd (col x)). lia. }
      destruct (Hb x s w Ci Cx M HI Hgs Lw LCi LCx) as (s' & E & Hgs').
      { specialize (HSL (col x + 1)). specialize (HSN (col x)). lia. }
      { destruct M0, M; auto. destruct VM; auto. }
      exists s'. split; auto. do 4 eexists. split; [exact Hgs'|].
      set (sl := znth 0 w (col x)) in *.
      assert (Hsl : 0 <= sl < zlen L) by (specialize (HSL (col x + 1)); specialize (HSN (col x)); lia).
      rewrite !zlen_upd. split; auto. split; auto. split; auto. split.
      { intros j Hj. rewrite znth_upd by lia. rewrite cnt_snoc. rewrite (Z.eqb_sym (col x) j).
        destruct (j =? col x) eqn:Ej.
        - assert (j = col x) by lia. subst j. unfold sl. rewrite Vw by auto. lia.
        - rewrite Vw by auto. lia. }
      split.
      { intros j Hj. rewrite znth_upd by lia. replace (j =? col x) with false by lia. auto. }
      split.
      { intros j Hj. rewrite cnt_snoc, filter_app. simpl filter. destruct (col x =? j) eqn:Ej.
        - assert (j = col x) by lia. subst j. rewrite Z.add_assoc. rewrite slots_snoc by (specialize (Hd (col x)); lia).
          rewrite map_app. f_equal.
          + rewrite <- VS by auto. apply slots_ext. intros s1 Hs1. rewrite <- Vw in Hs1 by auto. fold sl in Hs1.
            rewrite !znth_upd by lia. replace (s1 =? sl) with false by lia. auto.
          + rewrite <- Vw by auto. fold sl. rewrite !znth_upd by lia. rewrite Z.eqb_refl. reflexivity.
        - rewrite Z.add_0_r, app_nil_r. rewrite <- VS by auto. apply slots_ext. intros s1 Hs1.
          assert (Hne : s1 <> sl).
          { pose proof (HSS j). specialize (Hcnt j). rewrite Ej in Hcnt. specialize (Hr j).
            destruct (Z_lt_ge_dec j (col x)).
            - pose proof (start_mono col L (j + 1) (col x)). lia.
            - pose proof (start_mono col L (col x + 1) j). lia. }
          rewrite !znth_upd by lia. replace (s1 =? sl) with false by lia. auto. }
      destruct M0 as [t0|], M as [t|]; simpl; auto. destruct VM as (Lt & Vt & Ut).
      destruct (HM t0 eq_refl) as (HN & Hkr). pose proof (Hkr x HI) as Hkx.
      rewrite zlen_upd. split; auto.
      assert (Hnew : forall y, In y done -> key y <> key x).
      { intros y Hy Eq. rewrite EL, map_app in HN. simpl in HN. apply NoDup_remove_2 in HN. apply HN.
        apply in_or_app. left. rewrite <- Eq. apply in_map; auto. }
      split.
      { intros pre y post Ey. rewrite znth_upd by lia.
        destruct post as [|z post].
        - apply app_inj_tail in Ey as [<- <-]. rewrite Z.eqb_refl. unfold slot_of, sl. rewrite Vw by auto. auto.
        - assert (Hne : z :: post <> []) by discriminate. destruct (exists_last Hne) as (post' & z' & Ez). rewrite Ez in Ey.
          rewrite app_comm_cons, app_assoc in Ey. apply app_inj_tail in Ey as [Ey ->].
          assert (HIy : In y done) by (rewrite Ey; apply in_or_app; simpl; auto).
          replace (key y =? key z') with false by (specialize (Hnew y HIy); lia). eapply Vt; eauto. }
      { intros k Hk. rewrite znth_upd by lia.
        assert (Hkk : key x <> k) by (apply Hk; apply in_or_app; simpl; auto).
        replace (k =? key x) with false by lia.
        apply Ut. intros y Hy. apply Hk. apply in_or_app; auto. }
    - destruct HI as (w & Ci & Cx & M & Hgs & Lw & LCi & LCx & Vw & Uw & VS & VM).
      exists s', w, Ci, Cx, M. split; auto. split; auto. split; auto. split; auto. split; auto.
      split. { intros j Hj. rewrite start_succ, Vw by auto. auto. }
      split; auto. split; auto. intros j Hj. rewrite start_succ. auto.
  Qed.

  (** Consequences of the exact slot formula. *)
  Lemma slot_of_range L pre x post : L = pre ++ x :: post ->
    start col L (col x) <= slot_of L pre x < start col L (col x + 1).
  Proof.
    intros E. unfold slot_of. rewrite start_succ.
    assert (HcL : cnt (fun y => col y =? col x) L = cnt (fun y => col y =? col x) pre + (1 + cnt (fun y => col y =? col x) post)).
    { rewrite E. rewrite cnt_app, cnt_cons, Z.eqb_refl. auto. }
    pose proof (cnt_nonneg (fun y => col y =? col x) pre). pose proof (cnt_nonneg (fun y => col y =? col x) post). lia.
  Qed.

  Lemma slot_of_inj L pre x post pre' x' post' : L = pre ++ x :: post -> L = pre' ++ x' :: post' ->
    slot_of L pre x = slot_of L pre' x' -> length pre = length pre'.
  Proof.
    intros E E' H.
    assert (HH : forall pre x post pre' x' post', L = pre ++ x :: post -> L = pre' ++ x' :: post' ->
       (length pre < length pre')%nat -> col x = col x' -> slot_of L pre x < slot_of L pre' x').
    { clear. intros pre x post pre' x' post' E E' Hlt Hc. unfold slot_of. rewrite <- Hc.
      assert (HP : exists mid, pre' = pre ++ x :: mid).
      { rewrite E in E'. clear - E' Hlt. revert pre' Hlt E'.
        induction pre as [|a pre IH]; intros [|b pre'] Hlt E'; simpl in *; try lia.
        - inversion E'; subst. eauto.
        - inversion E'; subst. destruct (IH pre') as (mid & ->); auto; [lia|]. eauto. }
      destruct HP as (mid & ->). rewrite cnt_app, cnt_cons, Z.eqb_refl.
      pose proof (cnt_nonneg (fun y => col y =? col x) mid). lia. }
    assert (Hc : col x = col x').
    { pose proof (slot_of_range L pre x post E). pose proof (slot_of_range L pre' x' post' E').
      destruct (Z_lt_ge_dec (col x) (col x')).
      - pose proof (start_mono col L (col x + 1) (col x')). lia.
      - destruct (Z_lt_ge_dec (col x') (col x)); [|lia].
        pose proof (start_mono col L (col x' + 1) (col x)). lia. }
    destruct (Nat.lt_trichotomy (length pre) (length pre')) as [Hl|[Hl|Hl]]; auto.
    - specialize (HH _ _ _ _ _ _ E E' Hl Hc). lia.
    - specialize (HH _ _ _ _ _ _ E' E Hl (eq_sym Hc)). lia.
  Qed.

  (** The slot holds the item's entry. *)
  Lemma slot_of_entry L pre x post Ci Cx : L = pre ++ x :: post ->
    slots Ci Cx (start col L (col x)) (start col L (col x + 1)) = map ent (filter (fun y => col y =? col x) L) ->
    znth 0 Ci (slot_of L pre x) = row x /\ znth n0 Cx (slot_of L pre x) = val x.
  Proof.
    intros E H.
    assert (HN : nth_error (slots Ci Cx (start col L (col x)) (start col L (col x + 1)))
                   (Z.to_nat (cnt (fun y => col y =? col x) pre)) = Some (ent x)).
    { rewrite H. rewrite E at 1. rewrite filter_app. simpl filter. rewrite Z.eqb_refl. rewrite map_app.
      rewrite nth_error_app2; rewrite map_length; unfold cnt, zlen; rewrite Nat2Z.id; [|lia].
      rewrite Nat.sub_diag. reflexivity. }
    unfold slots, zseq in HN. rewrite !nth_error_map in HN.
    pose proof (slot_of_range L pre x post E) as HR. unfold slot_of in *.
    pose proof (cnt_nonneg (fun y => col y =? col x) pre) as Hp.
    assert (Hseq : nth_error (seq 0 (Z.to_nat (start col L (col x + 1) - start col L (col x))))
               (Z.to_nat (cnt (fun y => col y =? col x) pre)) = Some (Z.to_nat (cnt (fun y => col y =? col x) pre))).
    { rewrite nth_error_nth' with (d := 0%nat) by (rewrite seq_length; lia). rewrite seq_nth by lia. auto. }
    rewrite Hseq in HN. simpl in HN. rewrite Z2Nat.id in HN by lia. inversion HN; subst; auto.
  Qed.
End Scatter.

(** ** triplet_to_csc *)
Section Triplet.
  Context {K : NumOps}.
  (** The entries of column j of a triplet matrix, in the order given. *)
  Definition trip_col (T : csc K) (j : Z) : list (Z * K) :=
    map (fun k => (znth 0 (ci T) k, znth n0 (cx T) k))
        (filter (fun k => znth 0 (cp T) k =? j) (zseq 0 (cnz T))).

  Lemma triplet_to_csc_spec (T : csc K) jz jx TtoC : wf_triplet T ->
    (forall t, TtoC = Some t -> cnz T <= zlen t) ->
    exists C M, triplet_to_csc jz jx T TtoC = Some (C, M) /\ wf C /\
      cm C = cm T /\ cn C = cn T /\ nnz C = cnz T /\ cnz C = -1 /\ cnzmax C = cnz T /\
      zlen (cp C) = cn T + 1 /\ zlen (ci C) = cnz T /\ zlen (cx C) = cnz T /\
      (forall j, 0 <= j < cn T -> col_entries C j = trip_col T j) /\
      match TtoC, M with
      | None, None => True
      | Some t0, Some t => zlen t = zlen t0 /\
          (forall k, 0 <= k < cnz T -> colp C (znth 0 (cp T) k) <= znth 0 t k < colp C (znth 0 (cp T) k + 1) /\
              rowi C (znth 0 t k) = znth 0 (ci T) k /\ znth n0 (cx C) (znth 0 t k) = znth n0 (cx T) k) /\
          (forall k k', 0 <= k < cnz T -> 0 <= k' < cnz T -> znth 0 t k = znth 0 t k' -> k = k')
      | _, _ => False
      end.
  Proof.
    intros W HT. destruct W as [Hm Hn Hnz Lp Li Lx Hc Hr].
    unfold triplet_to_csc, csc_spalloc. cbn [cp ci cx cm cn cnzmax cnz]. rewrite Z.max_l by lia.
    set (L := zseq 0 (cnz T)). set (col := fun k => znth 0 (cp T) k).
    assert (HL : zlen L = cnz T) by (unfold zlen, L; rewrite length_zseq; lia).
    assert (HcL : forall k, In k L -> 0 <= col k < cn T) by (intros k Hk; apply In_zseq in Hk; apply Hc; lia).
    rewrite for_foldM. fold L.
    lazymatch goal with |- context [foldM ?b L (zrep (cn T) 0)] =>
    destruct (count_loop col (fun w : list Z => w) b
      L (zrep (cn T) 0) (cn T)) as (w & -> & Lw & Vw) end.
    { rewrite zlen_zrep; lia. }
    { intros k w Hk HLw. pose proof (HcL k Hk) as Hck. apply In_zseq in Hk.
      rewrite (zget_Some 0 (cp T)) by lia. fold (col k). rewrite (zget_Some 0 w) by lia. rewrite zset_Some by lia. eauto. }
    { auto. }
    assert (Vw' : forall j, 0 <= j < cn T -> znth 0 w j = cnt (fun x => col x =? j) L).
    { intros j Hj. rewrite Vw, znth_zrep by lia. lia. }
    destruct (csc_cumsum_spec (zrep (cn T + 1) jz) w (cn T)) as (Cp & w2 & -> & LCp & Lw2 & VCp & Vw2 & _);
      [lia|rewrite zlen_zrep; lia|lia|].
    rewrite zlen_zrep in LCp by lia.
    assert (HPS : forall j, 0 <= j <= cn T -> psum (fun i => znth 0 w i) j = start col L j).
    { intros j Hj. rewrite <- psum_start by (try lia; intros k Hk; apply HcL; auto).
      apply psum_ext. intros i Hi. apply Vw'. lia. }
    rewrite for_foldM. fold L.
    lazymatch goal with |- context [foldM ?b L (w2, _, _, _)] =>
    destruct (scatter_loop (S := list Z * list Z * list K * option (list Z)) col (fun k => znth 0 (ci T) k) (fun k => k)
       (fun k => znth n0 (cx T) k) (fun s => s)
       b
       L (w2, zrep (cnz T) jz, zrep (cnz T) jx, TtoC) w2 (zrep (cnz T) jz) (zrep (cnz T) jx) TtoC (cn T))
      as (s' & w3 & Ci & Cx & M & -> & -> & Lw3 & LCi & LCx & Vw3 & _ & VS & VM) end; auto.
    { lia. }
    { intros j Hj. rewrite Vw2 by lia. apply HPS. lia. }
    { rewrite zlen_zrep; lia. }
    { rewrite zlen_zrep; lia. }
    { intros t Ht. rewrite map_id. split; [apply NoDup_zseq|]. intros k Hk. apply In_zseq in Hk.
      specialize (HT t Ht). lia. }
    { intros k s w' Ci Cx M Hk -> Lw' LCi LCx Hp HMM. pose proof (HcL k Hk) as Hck.
      assert (Hk' : 0 <= k < cnz T) by (apply In_zseq in Hk; auto). rewrite zlen_zrep in LCi by lia.
      rewrite zlen_zrep in LCx by lia.
      rewrite (zget_Some 0 (cp T)) by lia. fold (col k). rewrite (zget_Some 0 w') by lia.
      rewrite zset_Some by lia. rewrite (zget_Some 0 (ci T)) by lia. rewrite zset_Some by lia.
      rewrite (zget_Some n0 (cx T)) by lia. rewrite zset_Some by lia.
      destruct TtoC as [t0|], M as [t|]; try tauto.
      - specialize (HT t0 eq_refl). rewrite zset_Some by lia. eauto.
      - eauto. }
    rewrite zlen_zrep in LCi by lia. rewrite zlen_zrep in LCx by lia.
    eexists; eexists; split; [reflexivity|].
    set (C := mkcsc (cm T) (cn T) Cp Ci Cx (cnz T) (-1)).
    assert (HCp : forall j, 0 <= j <= cn T -> colp C j = start col L j).
    { intros j Hj. unfold colp, C; cbn [cp]. rewrite VCp by lia. apply HPS; lia. }
    assert (Hnnz : nnz C = cnz T).
    { unfold nnz, C at 2; cbn [cn]. rewrite HCp by lia. rewrite start_n; auto. intros k Hk. apply HcL; auto. }
    assert (HE : forall j, 0 <= j < cn T -> col_entries C j = trip_col T j).
    { intros j Hj. unfold col_entries. rewrite !HCp by lia. unfold C; cbn [ci cx]. rewrite VS by auto. reflexivity. }
    split.
    { constructor; try exact Hm; try exact Hn.
      - unfold C; cbn [cn cp]. lia.
      - rewrite HCp by lia. apply start_0. intros k Hk; apply HcL; auto.
      - intros j Hj. unfold C in Hj; cbn [cn] in Hj. rewrite !HCp by lia. apply start_mono. lia.
      - rewrite Hnnz. unfold C; cbn [ci]. lia.
      - rewrite Hnnz. unfold C; cbn [cx]. lia.
      - (* every slot holds the row of some triplet *)
        intros s Hs. rewrite Hnnz in Hs.
        assert (HJ : exists j, 0 <= j < cn T /\ start col L j <= s < start col L (j + 1)).
        { assert (HH : forall n', 0 <= n' -> n' <= cn T -> s < start col L n' ->
             exists j, 0 <= j < n' /\ start col L j <= s < start col L (j + 1)).
          { intros n' Hn'. pattern n'. apply natlike_ind; auto.
            - intros _. rewrite start_0; [lia|]. intros k Hk; apply HcL; auto.
            - intros x Hx IH Hle Hs'. unfold Z.succ in *. destruct (Z_lt_ge_dec s (start col L x)).
              + destruct IH as (j & ? & ?); try lia. exists j; lia.
              + exists x. lia. }
          apply HH; try lia. rewrite start_n; [lia|]. intros k Hk; apply HcL; auto. }
        destruct HJ as (j & Hj & Hsj). specialize (HE j Hj).
        assert (HI : In (rowi C s, znth n0 (cx C) s) (trip_col T j)).
        { rewrite <- HE. unfold col_entries, slots. apply in_map_iff. exists s. split; auto.
          apply In_zseq. rewrite !HCp by lia. auto. }
        apply in_map_iff in HI as (k & Ek & Hk). apply filter_In in Hk as [Hk _]. apply In_zseq in Hk.
        apply (f_equal fst) in Ek. cbn [fst] in Ek. rewrite <- Ek. change (cm C) with (cm T). apply Hr; auto. }
    repeat (split; [solve [auto]|]). 
    destruct TtoC as [t0|], M as [t|]; auto. destruct VM as (Lt & Vt & _). split; auto.
    assert (Hpos : forall k, 0 <= k < cnz T -> L = zseq 0 k ++ k :: zseq (k + 1) (cnz T)).
    { intros k Hk. apply zseq_split; auto. }
    split.
    - intros k Hk. specialize (Hpos k Hk). pose proof (Vt _ _ _ Hpos) as Ek. cbv beta in Ek. rewrite Ek.
      pose proof (slot_of_range col L _ _ _ Hpos) as HRg. pose proof (Hc k Hk) as Hck.
      split. { change (znth 0 (cp T) k) with (col k) in Hck. rewrite !HCp by lia. exact HRg. }
      exact (slot_of_entry col (fun k => znth 0 (ci T) k) (fun k => znth n0 (cx T) k) L _ _ _ Ci Cx Hpos (VS _ Hck)).
    - intros k k' Hk Hk' Eq. pose proof (Hpos k Hk) as P1. pose proof (Hpos k' Hk') as P2.
      rewrite (Vt _ _ _ P1), (Vt _ _ _ P2) in Eq.
      pose proof (slot_of_inj col L _ _ _ _ _ _ P1 P2 Eq) as HLn. rewrite !length_zseq in HLn. lia.
  Qed.
End Triplet.
