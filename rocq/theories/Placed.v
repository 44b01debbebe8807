(** A matrix as a collection of placed items; the scatter pattern one step at a time. *)
From Coq Require Import ZArith Reals List Bool Lia Lra Permutation.
From Verif Require Import Num Arr ArrFacts RSum Csc CscSpec CscFacts CscFacts2 Scatter CscFacts3.
Import ListNotations.
Open Scope Z_scope.

(** The part of a list before the first occurrence of x. *)
Fixpoint before {X} (dec : forall a b : X, {a = b} + {a <> b}) (x : X) (l : list X) : list X :=
  match l with
  | [] => []
  | a :: l => if dec x a then [] else a :: before dec x l
  end.

Lemma before_split {X} dec (x : X) pre post : ~ In x pre -> before dec x (pre ++ x :: post) = pre.
Proof.
  induction pre as [|a pre IH]; intros H; cbn [app before].
  - destruct (dec x x); congruence.
  - destruct (dec x a). { subst. exfalso. apply H. simpl. auto. } f_equal. apply IH. intros HI. apply H. simpl. auto.
Qed.

Lemma before_NoDup {X} dec (x : X) L pre post : NoDup L -> L = pre ++ x :: post -> before dec x L = pre.
Proof.
  intros HN ->. apply before_split. apply NoDup_remove_2 in HN. intros HI. apply HN. apply in_or_app. auto.
Qed.

Section Step.
  Context {K : NumOps} {X : Type}.
  Variable (col row : X -> Z) (val : X -> K) (n : Z) (L : list X).

  (** State of a scatter when the items [pre] have been placed. *)
  Record sinv (pre : list X) (w Ci : list Z) (Cx : list K) : Prop := {
    si_wl : n <= zlen w; si_il : zlen L <= zlen Ci; si_xl : zlen L <= zlen Cx;
    si_w : forall j, 0 <= j < n -> znth 0 w j = start col L j + cnt (fun x => col x =? j) pre;
    si_slots : forall j, 0 <= j < n ->
      slots Ci Cx (start col L j) (start col L j + cnt (fun x => col x =? j) pre)
        = map (ent row val) (filter (fun x => col x =? j) pre) }.

  Hypothesis Hcol : forall x, In x L -> 0 <= col x < n.

  Lemma sinv_init w Ci Cx : n <= zlen w -> zlen L <= zlen Ci -> zlen L <= zlen Cx ->
    (forall j, 0 <= j < n -> znth 0 w j = start col L j) -> sinv [] w Ci Cx.
  Proof.
    intros H1 H2 H3 H4. constructor; auto.
    - intros j Hj. rewrite cnt_nil, H4 by auto. lia.
    - intros j Hj. rewrite cnt_nil, slots_nil by lia. auto.
  Qed.

  Lemma sinv_slot pre x post w Ci Cx : L = pre ++ x :: post -> sinv pre w Ci Cx ->
    0 <= col x < zlen w /\ znth 0 w (col x) = slot_of col L pre x /\
    0 <= znth 0 w (col x) < zlen L.
  Proof.
    intros EL S. assert (HI : In x L) by (rewrite EL; apply in_or_app; simpl; auto).
    pose proof (Hcol x HI) as Hc. pose proof (si_wl _ _ _ _ S). split; [lia|].
    assert (E : znth 0 w (col x) = slot_of col L pre x) by (rewrite (si_w _ _ _ _ S) by auto; reflexivity).
    split; auto. pose proof (slot_of_range col L pre x post EL) as HR.
    pose proof (start_nonneg col L (col x)). pose proof (start_le col L (col x + 1)). lia.
  Qed.

  Lemma sinv_step pre x post w Ci Cx : L = pre ++ x :: post -> sinv pre w Ci Cx ->
    sinv (pre ++ [x]) (upd w (Z.to_nat (col x)) (znth 0 w (col x) + 1))
         (upd Ci (Z.to_nat (znth 0 w (col x))) (row x)) (upd Cx (Z.to_nat (znth 0 w (col x))) (val x)).
  Proof.
    intros EL S. destruct (sinv_slot _ _ _ _ _ _ EL S) as (Hcw & Esl & Hsl).
    assert (HI : In x L) by (rewrite EL; apply in_or_app; simpl; auto).
    pose proof (Hcol x HI) as Hc. destruct S as [Lw LCi LCx Vw VS].
    assert (Hcnt : forall j, cnt (fun x => col x =? j) L =
        cnt (fun x => col x =? j) pre + (if col x =? j then 1 else 0) + cnt (fun x => col x =? j) post).
    { intros j. rewrite EL, cnt_app, cnt_cons. lia. }
    pose proof (fun j => cnt_nonneg (fun x => col x =? j) post) as Hr.
    pose proof (fun j => cnt_nonneg (fun x => col x =? j) pre) as Hd.
    pose proof (start_succ col L) as HSS.
    assert (Hs : start col L (col x) <= znth 0 w (col x) < start col L (col x + 1)).
    { rewrite Vw by auto. rewrite HSS, Hcnt, Z.eqb_refl. specialize (Hr (col x)). specialize (Hd (col x)). lia. }
    set (sl := znth 0 w (col x)) in *.
    constructor; rewrite ?zlen_upd; auto.
    - intros j Hj. rewrite znth_upd by lia. rewrite cnt_snoc. rewrite (Z.eqb_sym (col x) j).
      destruct (j =? col x) eqn:Ej.
      + assert (j = col x) by lia. subst j. unfold sl. rewrite Vw by auto. lia.
      + rewrite Vw by auto. lia.
    - intros j Hj. rewrite cnt_snoc, filter_app. cbn [filter]. destruct (col x =? j) eqn:Ej.
      + assert (j = col x) by lia. subst j. rewrite Z.add_assoc. rewrite slots_snoc by (specialize (Hd (col x)); lia).
        rewrite map_app. f_equal.
        * rewrite <- VS by auto. apply slots_ext. intros s1 Hs1. rewrite <- Vw in Hs1 by auto. fold sl in Hs1.
          rewrite !znth_upd by lia. replace (s1 =? sl) with false by lia. auto.
        * rewrite <- Vw by auto. fold sl. rewrite !znth_upd by lia. rewrite Z.eqb_refl. reflexivity.
      + rewrite Z.add_0_r, app_nil_r. rewrite <- VS by auto. apply slots_ext. intros s1 Hs1.
        assert (Hne : s1 <> sl).
        { pose proof (HSS j). specialize (Hcnt j). rewrite Ej in Hcnt. specialize (Hr j).
          destruct (Z_lt_ge_dec j (col x)).
          - pose proof (start_mono col L (j + 1) (col x)). lia.
          - pose proof (start_mono col L (col x + 1) j). lia. }
        rewrite !znth_upd by lia. replace (s1 =? sl) with false by lia. auto.
  Qed.

  Lemma sinv_final w Ci Cx : sinv L w Ci Cx ->
    (forall j, 0 <= j < n -> znth 0 w j = start col L (j + 1)) /\
    (forall j, 0 <= j < n ->
         slots Ci Cx (start col L j) (start col L (j + 1)) = map (ent row val) (filter (fun x => col x =? j) L)).
  Proof.
    intros [_ _ _ Vw VS]. split; intros j Hj; rewrite start_succ; [rewrite Vw by auto; auto|auto].
  Qed.

  (** An item that is the last one of its column is in the last slot of the column. *)
  Lemma slot_of_last pre x post : L = pre ++ x :: post -> (forall y, In y post -> col y <> col x) ->
    slot_of col L pre x = start col L (col x + 1) - 1.
  Proof.
    intros EL Hp. unfold slot_of. rewrite start_succ.
    assert (HcL : cnt (fun y => col y =? col x) L = cnt (fun y => col y =? col x) pre + (1 + cnt (fun y => col y =? col x) post)).
    { rewrite EL, cnt_app, cnt_cons, Z.eqb_refl. auto. }
    rewrite (cnt_none _ post) in HcL; [lia|]. intros y Hy. specialize (Hp y Hy). lia.
  Qed.

  (** ** Placed items *)
  (** Every item x of [items] has a slot of its own in M, in column [col x], with row [row x] and
      value [val x], and these are all the slots of M. *)
  Record placed (items : list X) (sl : X -> Z) (M : csc K) : Prop := {
    pl_wf : wf M;
    pl_perm : Permutation (map sl items) (zseq 0 (nnz M));
    pl_item : forall x, In x items -> 0 <= col x < cn M /\ colp M (col x) <= sl x < colp M (col x + 1) /\
                rowi M (sl x) = row x /\ znth n0 (cx M) (sl x) = val x }.
End Step.

Arguments sinv {K X}. Arguments placed {K X}.

Section PlacedFacts.
  Context {K : NumOps} {X : Type}.
  Implicit Types (col row : X -> Z) (val : X -> K) (sl : X -> Z) (M : csc K).

  Lemma placed_inj col row val items sl M : placed col row val items sl M ->
    forall x y, In x items -> In y items -> sl x = sl y -> NoDup items -> x = y.
  Proof.
    intros PL x y Hx Hy E HN.
    assert (HN2 : NoDup (map sl items)).
    { eapply Permutation_NoDup; [apply Permutation_sym, (pl_perm _ _ _ _ _ _ PL)|apply NoDup_zseq]. }
    clear PL. induction items as [|a l IH]; [destruct Hx|].
    cbn [map] in HN2. inversion HN; subst. inversion HN2; subst.
    destruct Hx as [->|Hx], Hy as [->|Hy]; auto.
    - exfalso. match goal with H : ~ In (sl x) _ |- _ => apply H end. rewrite E. apply in_map. auto.
    - exfalso. match goal with H : ~ In (sl y) _ |- _ => apply H end. rewrite <- E. apply in_map. auto.
  Qed.

  Lemma placed_slot col row val items sl M : placed col row val items sl M ->
    forall x, In x items -> 0 <= sl x < nnz M /\ 0 <= sl x < zlen (cx M) /\ 0 <= sl x < zlen (ci M).
  Proof.
    intros PL x Hx. destruct (pl_item _ _ _ _ _ _ PL x Hx) as (Hc & Hs & _).
    pose proof (slot_range M (col x) (sl x) (pl_wf _ _ _ _ _ _ PL) Hc Hs).
    pose proof (wf_xlen _ (pl_wf _ _ _ _ _ _ PL)). pose proof (wf_ilen _ (pl_wf _ _ _ _ _ _ PL)). lia.
  Qed.

  (** A matrix with the same pattern. *)
  Lemma wf_set_x M x : wf M -> nnz M <= zlen x -> wf (set_x M x).
  Proof. intros [? ? ? ? ? ? ? ?] H. constructor; auto. Qed.

  (** Other values in the same places. *)
  Lemma placed_set_x col row val val' items sl M x : placed col row val items sl M ->
    zlen x = zlen (cx M) ->
    (forall y, In y items -> znth n0 x (sl y) = val' y) ->
    placed col row val' items sl (set_x M x).
  Proof.
    intros PL HL HV. destruct PL as [W PP PI]. constructor.
    - apply wf_set_x; auto. pose proof (wf_xlen _ W). lia.
    - exact PP.
    - intros y Hy. destruct (PI y Hy) as (H1 & H2 & H3 & _). split; [exact H1|]. split; [exact H2|]. split; [exact H3|].
      cbn [set_x cx]. auto.
  Qed.

  Lemma placed_ext col row val col' row' val' items sl sl' M : placed col row val items sl M ->
    (forall x, In x items -> col' x = col x /\ row' x = row x /\ val' x = val x /\ sl' x = sl x) ->
    placed col' row' val' items sl' M.
  Proof.
    intros [W PP PI] H. constructor; auto.
    - replace (map sl' items) with (map sl items); auto. apply map_ext_in. intros x Hx. symmetry. apply H; auto.
    - intros x Hx. destruct (H x Hx) as (-> & -> & -> & ->). auto.
  Qed.

  Lemma in_split_NoDup_map (sl : X -> Z) items : (forall pre x post pre' x' post', items = pre ++ x :: post -> items = pre' ++ x' :: post' ->
      sl x = sl x' -> length pre = length pre') -> NoDup (map sl items).
  Proof.
    intros H. apply NoDup_nth_error. intros i j Hi E.
    rewrite map_length in Hi. rewrite !nth_error_map in E.
    destruct (nth_error items i) as [x|] eqn:Ex; [|apply nth_error_None in Ex; lia].
    destruct (nth_error items j) as [y|] eqn:Ey; [|discriminate].
    cbn [option_map] in E. inversion E as [E'].
    apply nth_error_split in Ex as (p1 & q1 & E1 & <-). apply nth_error_split in Ey as (p2 & q2 & E2 & <-).
    eapply H; eauto.
  Qed.

  (** The result of a complete scatter. *)
  Lemma placed_scatter (dec : forall a b : X, {a = b} + {a <> b}) col row val (L : list X) (C : csc K) :
    NoDup L ->
    0 <= cm C -> 0 <= cn C -> cn C + 1 <= zlen (cp C) ->
    (forall j, 0 <= j <= cn C -> colp C j = start col L j) ->
    (forall x, In x L -> 0 <= col x < cn C) -> (forall x, In x L -> 0 <= row x < cm C) ->
    zlen L <= zlen (ci C) -> zlen L <= zlen (cx C) ->
    (forall j, 0 <= j < cn C ->
       slots (ci C) (cx C) (start col L j) (start col L (j + 1)) = map (ent row val) (filter (fun x => col x =? j) L)) ->
    placed col row val L (fun x => slot_of col L (before dec x L) x) C /\ nnz C = zlen L.
  Proof.
    intros HND Hm Hn Hp HCp Hc Hr Li Lx VS.
    destruct (wf_scatter col row val L C) as (W & HnC & HE); auto.
    assert (HB : forall pre x post, L = pre ++ x :: post -> before dec x L = pre) by (intros; eapply before_NoDup; eauto).
    split; auto. constructor; auto.
    - assert (HN : NoDup (map (fun x => slot_of col L (before dec x L) x) L)).
      { apply in_split_NoDup_map. intros pre x post pre' x' post' E E' Es. cbv beta in Es.
        rewrite (HB _ _ _ E), (HB _ _ _ E') in Es. eapply slot_of_inj; eauto. }
      apply NoDup_Permutation_bis; auto.
      + rewrite map_length, length_zseq. unfold zlen in HnC. lia.
      + intros s Hs. apply in_map_iff in Hs as (x & <- & Hx). apply in_split in Hx as (pre & post & E).
        rewrite (HB _ _ _ E). apply In_zseq. pose proof (slot_of_range col L pre x post E).
        pose proof (start_nonneg col L (col x)). pose proof (start_le col L (col x + 1)). lia.
    - intros x Hx. split; [auto|]. destruct (in_split _ _ Hx) as (pre & post & E). rewrite (HB _ _ _ E).
      pose proof (Hc x Hx) as Hcx. rewrite !HCp by lia. split; [eapply slot_of_range; eauto|].
      unfold rowi. apply (slot_of_entry col row val L pre x post (ci C) (cx C) E). apply VS. auto.
  Qed.
End PlacedFacts.

(** Slots of one column. *)
Lemma slot_col_iff {K : NumOps} (M : csc K) j k s : wf M -> 0 <= j < cn M -> colp M j <= s < colp M (j + 1) ->
  0 <= k < cn M -> (colp M k <= s < colp M (k + 1) <-> k = j).
Proof.
  intros W Hj Hs Hk. split; [|intros ->; auto]. intros Hs'.
  destruct (Z_lt_ge_dec j k).
  - pose proof (colp_mono M W (j + 1) k ltac:(lia) ltac:(lia)). lia.
  - destruct (Z_lt_ge_dec k j); [|lia]. pose proof (colp_mono M W (k + 1) j ltac:(lia) ltac:(lia)). lia.
Qed.

Lemma lsum_Permutation {X} (f : X -> R) l l' : Permutation l l' -> lsum f l = lsum f l'.
Proof. induction 1; cbn [lsum]; try lra. Qed.

(** The dense matrix is the sum over the items. *)
Lemma dns_placed {X} (col row : X -> Z) (val : X -> R) items sl (M : csc Rops) a b :
  placed (K := Rops) col row val items sl M -> 0 <= b < cn M ->
  dns M a b = lsum (fun x => if (col x =? b) && (row x =? a) then val x else 0%R) items.
Proof.
  intros PL Hb. pose proof (pl_wf _ _ _ _ _ _ PL) as W.
  assert (E : dns M a b = zsum 0 (nnz M) (fun s => if ((colp M b <=? s) && (s <? colp M (b + 1))) && (rowi M s =? a) then valx M s else 0%R)).
  { unfold dns. pose proof (colp_range M b W ltac:(lia)). pose proof (colp_range M (b + 1) W ltac:(lia)).
    pose proof (wf_mono _ W b Hb).
    rewrite (zsum_app 0 (colp M b) (nnz M)) by lia. rewrite (zsum_app (colp M b) (colp M (b + 1)) (nnz M)) by lia.
    rewrite (zsum_0 0). 2:{ intros s Hs. replace (colp M b <=? s) with false by lia. auto. }
    rewrite (zsum_0 (colp M (b + 1))). 2:{ intros s Hs. replace (s <? colp M (b + 1)) with false by lia. rewrite andb_false_r. auto. }
    rewrite Rplus_0_l, Rplus_0_r. apply zsum_ext. intros s Hs.
    replace ((colp M b <=? s) && (s <? colp M (b + 1))) with true by lia. auto. }
  rewrite E. unfold zsum. rewrite <- (lsum_Permutation _ _ _ (pl_perm _ _ _ _ _ _ PL)). rewrite lsum_map.
  apply lsum_ext. intros x Hx. destruct (pl_item _ _ _ _ _ _ PL x Hx) as (Hc & Hs & Hr & Hv).
  pose proof (slot_col_iff M (col x) b (sl x) W Hc Hs Hb) as HI. rewrite Hr. unfold valx.
  replace ((colp M b <=? sl x) && (sl x <? colp M (b + 1))) with (col x =? b).
  - rewrite <- n0_R. destruct ((col x =? b) && (row x =? a)); auto.
  - destruct (Z.eqb_spec (col x) b) as [e|Hne]; symmetry; [rewrite <- e; lia|].
    apply not_true_iff_false. intros Ht. apply Hne. symmetry. apply HI. lia.
Qed.
