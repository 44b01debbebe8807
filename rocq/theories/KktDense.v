(** The dense meaning of the KKT matrix, and the incremental updates. *)
From Coq Require Import ZArith Reals List Bool Lia Lra Permutation.
From Verif Require Import Num Arr ArrFacts RSum Csc CscSpec CscFacts CscFacts2 Scatter CscFacts3 Placed Kkt KktFacts KktFacts2 KktFacts3 KktSpec.
Import ListNotations.
Open Scope Z_scope.

Lemma lsum_unique {X} (c : X -> bool) (f : X -> R) (L : list X) y : NoDup L -> In y L -> c y = true ->
  (forall x, In x L -> c x = true -> x = y) -> lsum (fun x => if c x then f x else 0%R) L = f y.
Proof.
  intros HN HI Hc H. induction L as [|a l IH]; [destruct HI|]. inversion HN; subst. cbn [lsum].
  destruct HI as [->|HI].
  - rewrite Hc. rewrite lsum_0; [lra|]. intros x Hx. destruct (c x) eqn:E; auto.
    exfalso. assert (x = y) by (apply H; simpl; auto). subst. contradiction.
  - rewrite IH; auto.
    + destruct (c a) eqn:E; [|lra]. exfalso. assert (a = y) by (apply H; simpl; auto). subst. contradiction.
    + intros x Hx. apply H. simpl; auto.
Qed.

Lemma placed_triu {K : NumOps} {X} col row (val : X -> K) items sl (M : csc K) : placed col row val items sl M ->
  cm M = cn M -> (forall x, In x items -> row x <= col x) -> triu M.
Proof.
  intros PL Hm H. split; auto. intros j k Hj Hk. pose proof (pl_wf _ _ _ _ _ _ PL) as W.
  assert (HI : In k (map sl items)).
  { eapply Permutation_in; [apply Permutation_sym, (pl_perm _ _ _ _ _ _ PL)|]. apply In_zseq. eapply slot_range; eauto. }
  apply in_map_iff in HI as (x & <- & Hx). destruct (pl_item _ _ _ _ _ _ PL x Hx) as (Hc & Hs & -> & _).
  apply (slot_col_iff M j (col x) (sl x) W Hj Hk Hc) in Hs. specialize (H x Hx). lia.
Qed.

Section Dense.
  Variable (P A : csc Rops).
  Hypothesis WP : wf P.
  Hypothesis WA : wf A.
  Hypothesis HmP : cm P = cn P.
  Hypothesis HnA : cn A = cn P.
  Variable (sigma : R) (r : Z -> R).

  (** Sum of the values of the items with column b and row a. *)
  Lemma kitems_sum a b : 0 <= a < cm A + cn P -> 0 <= b < cm A + cn P ->
    lsum (fun x => if (kcol P A false x =? b) && (krow P A false x =? a) then @kval Rops P A sigma r x else 0%R) (kitems P A false)
    = if b <? cn P then (dns P a b + (if (a =? b)%Z then sigma else 0))%R
      else if a <? cn P then dns A (b - cn P) a
      else if a =? b then r (a - cn P) else 0%R.
  Proof.
    intros Ha Hb. pose proof (wf_n _ WP) as Hn. pose proof (wf_m _ WA) as Hm.
    set (L := kitems P A false). set (c := fun x => (kcol P A false x =? b) && (krow P A false x =? a)).
    set (v := fun x => match x with IP _ k => valx P k | ID _ => 0%R | IA _ k => valx A k | IR j => r j end).
    rewrite (lsum_ext _ (fun x => (if c x then v x else 0) + (if c x && is_dit P x then sigma else 0))%R).
    2:{ intros x _. unfold c, v, valx. destruct x as [j k|j|j k|j]; cbn [kval is_dit]; rewrite ?n0_R;
        destruct ((_ =? b) && (_ =? a)); cbn [andb]; try lra;
        try (destruct (negb (miss P j) && (k =? colp P (j + 1) - 1))); cbn; lra. }
    rewrite lsum_plus.
    assert (HD : lsum (fun x => if c x && is_dit P x then sigma else 0%R) L = if (b <? cn P) && (a =? b) then sigma else 0%R).
    { destruct ((b <? cn P) && (a =? b)) eqn:E.
      - assert (Eab : a = b) by lia. subst a. assert (Hb' : 0 <= b < cn P) by lia.
        destruct (In_dit P A WP b Hb') as (HI & Hc & Hr & Hd).
        apply (lsum_unique (fun x => c x && is_dit P x) (fun _ => sigma) L (dit P b)); auto.
        + apply NoDup_kitems.
        + unfold c. rewrite Hc, Hr, Hd, Z.eqb_refl. auto.
        + intros x Hx Hcx. apply andb_true_iff in Hcx as [Hcx Hdx]. unfold c in Hcx.
          rewrite (is_dit_eq P A x Hx Hdx). f_equal. lia.
      - apply lsum_0. intros x Hx. destruct (c x && is_dit P x) eqn:Ec; auto. exfalso.
        apply andb_true_iff in Ec as [Hcx Hdx]. pose proof (is_dit_eq P A x Hx Hdx) as Ex.
        pose proof Hx as Hx'. apply In_kitems in Hx'. unfold c in Hcx.
        assert (Hcol : 0 <= kcol P A false x < cn P).
        { destruct x; cbn [kcol is_dit] in *; try discriminate; tauto. }
        destruct (In_dit P A WP (kcol P A false x) Hcol) as (_ & Hc & Hr & _). rewrite <- Ex in Hr. lia. }
    rewrite HD. unfold L, kitems. rewrite !lsum_app. unfold iP, iD, iA, iR. rewrite !lsum_map.
    assert (H1 : lsum (fun x => if c (kIP x) then v (kIP x) else 0%R) (pairs P) = if b <? cn P then dns P a b else 0%R).
    { destruct (Z.ltb_spec b (cn P)).
      - rewrite (dns_pairs P a b) by lia. apply lsum_ext. intros [j k] _. unfold c, v. cbn [kIP kcol krow fst snd]. auto.
      - apply lsum_0. intros [j k] Hx. apply In_pairs in Hx. unfold c. cbn [kIP kcol krow fst snd].
        replace (j =? b) with false by lia. auto. }
    assert (H2 : lsum (fun x => if c (ID x) then v (ID x) else 0%R) (filter (miss P) (zseq 0 (cn P))) = 0%R).
    { apply lsum_0. intros x _. unfold v. destruct (c (ID x)); auto. }
    assert (H3 : lsum (fun x => if c (kIA x) then v (kIA x) else 0%R) (pairs A) =
       if (b <? cn P) then 0%R else if (a <? cn P) then dns A (b - cn P) a else 0%R).
    { destruct (Z.ltb_spec b (cn P)); [|destruct (Z.ltb_spec a (cn P))].
      - apply lsum_0. intros [j k] Hx. apply In_pairs in Hx as [Hj Hk]. unfold c. cbn [kIA kcol krow fst snd].
        pose proof (wf_rows _ WA k (slot_range _ _ _ WA Hj Hk)). replace (rowi A k + cn P =? b) with false by lia. auto.
      - rewrite (dns_pairs A (b - cn P) a) by lia. apply lsum_ext. intros [j k] _. unfold c, v. cbn [kIA kcol krow fst snd].
        replace ((rowi A k + cn P =? b) && (j =? a)) with ((j =? a) && (rowi A k =? b - cn P)) by lia. auto.
      - apply lsum_0. intros [j k] Hx. apply In_pairs in Hx as [Hj Hk]. unfold c. cbn [kIA kcol krow fst snd].
        replace (j =? a) with false by lia. rewrite andb_false_r. auto. }
    assert (H4 : lsum (fun x => if c (IR x) then v (IR x) else 0%R) (zseq 0 (cm A)) =
       if (b <? cn P) then 0%R else if (a =? b) then r (a - cn P) else 0%R).
    { destruct (Z.ltb_spec b (cn P)); [|destruct (Z.eqb_spec a b)].
      - apply lsum_0. intros j Hj. apply In_zseq in Hj. unfold c. cbn [kcol krow]. replace (j + cn P =? b) with false by lia. auto.
      - subst a. apply (lsum_unique (fun x => c (IR x)) (fun x => v (IR x)) (zseq 0 (cm A)) (b - cn P)).
        + apply NoDup_zseq.
        + apply In_zseq. lia.
        + unfold c. cbn [kcol krow]. lia.
        + intros j Hj Hc. unfold c in Hc. cbn [kcol krow] in Hc. lia.
      - apply lsum_0. intros j Hj. unfold c. cbn [kcol krow]. replace ((j + cn P =? b) && (j + cn P =? a)) with false by lia. auto. }
    rewrite H1, H2, H3, H4.
    destruct (Z.ltb_spec b (cn P)); cbn [andb].
    - destruct (a =? b); lra.
    - destruct (Z.ltb_spec a (cn P)).
      + replace (a =? b) with false by lia. lra.
      + destruct (a =? b); lra.
  Qed.

  (** P has its entries in the upper triangle: the symmetric matrix. *)
  Lemma kitems_sum_sym i j : triu P -> 0 <= i <= j -> j < cm A + cn P ->
    lsum (fun x => if (kcol P A false x =? j) && (krow P A false x =? i) then @kval Rops P A sigma r x else 0%R) (kitems P A false)
    = kktS (cn P) (sdns P) (dns A) sigma (fun k => - r k)%R i j.
  Proof.
    intros HT Hij Hj. rewrite kitems_sum by lia. unfold kktS, sdns.
    destruct (Z.ltb_spec j (cn P)).
    - replace (i <? cn P) with true by lia. replace (i <=? j) with true by lia. auto.
    - destruct (Z.ltb_spec i (cn P)); auto. destruct (i =? j); auto. lra.
  Qed.
End Dense.

Lemma kktS_sym n P A sigma d i j : (forall a b, P a b = P b a) ->
  kktS n P A sigma d i j = kktS n P A sigma d j i.
Proof.
  intros HP. unfold kktS. rewrite (HP i j), (Z.eqb_sym j i).
  destruct (i <? n), (j <? n); auto. destruct (Z.eqb_spec i j); subst; auto.
Qed.

Lemma sdns_sym (P : csc Rops) a b : sdns P a b = sdns P b a.
Proof.
  unfold sdns. destruct (Z.leb_spec a b), (Z.leb_spec b a); auto; try lia. replace b with a by lia. auto.
Qed.

(** A symmetric matrix stored by its upper triangle, all of whose items are known. *)
Lemma sdns_placed {X} col row (val : X -> R) items sl (M : csc Rops) (S : Z -> Z -> R) :
  placed (K := Rops) col row val items sl M -> (forall a b, S a b = S b a) ->
  (forall a b, 0 <= a <= b -> b < cn M ->
     lsum (fun x => if (col x =? b) && (row x =? a) then val x else 0%R) items = S a b) ->
  forall a b, 0 <= a < cn M -> 0 <= b < cn M -> sdns M a b = S a b.
Proof.
  intros PL HS H a b Ha Hb. unfold sdns. destruct (Z.leb_spec a b).
  - rewrite (dns_placed col row val items sl M a b PL) by auto. apply H; lia.
  - rewrite (dns_placed col row val items sl M b a PL) by auto. rewrite HS. apply H; lia.
Qed.
