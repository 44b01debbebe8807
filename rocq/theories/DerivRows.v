(** Which rows of the constraints the derivative code looks at (Deriv.v: classify), and the sub-vectors and
    sub-matrices of those rows. *)
From Coq Require Import ZArith Reals List Bool Lia Lra.
From Verif Require Import Num Arr ArrFacts RSum Csc CscSpec CscFacts CscFacts2 Scatter CscFacts3 CscFacts4 CscFacts5
  Vec Types Linsys VecFacts LinsysFacts LinsysSolve LdlEnv Inv RealVec Deriv.
Import ListNotations.
Open Scope Z_scope.

(** The rows below m that satisfy f, in order. *)
Definition sel (f : Z -> bool) (m : Z) : list Z := filter f (zseq 0 m).

Lemma sel_succ f m : 0 <= m -> sel f (m + 1) = sel f m ++ (if f m then [m] else []).
Proof. intros. unfold sel. rewrite zseq_snoc by auto. rewrite filter_app. cbn [filter]. reflexivity. Qed.
Lemma zlen_sel_succ f m : 0 <= m -> zlen (sel f (m + 1)) = zlen (sel f m) + (if f m then 1 else 0).
Proof. intros. rewrite sel_succ, zlen_app by auto. destruct (f m); unfold zlen; cbn [length]; lia. Qed.
Lemma sel_mono f i j : 0 <= i <= j -> zlen (sel f i) <= zlen (sel f j).
Proof.
  intros H. unfold sel. rewrite (zseq_app 0 i j), filter_app, zlen_app by lia. pose proof (zlen_nonneg (filter f (zseq i j))). lia.
Qed.
Lemma zlen_sel_le f m : 0 <= m -> zlen (sel f m) <= m.
Proof. intros H. unfold sel. pose proof (cnt_le_len f (zseq 0 m)) as HC. unfold cnt in HC. rewrite zlen_zseq in HC. lia. Qed.
Lemma sel_in f m a : 0 <= a < zlen (sel f m) -> 0 <= znth 0 (sel f m) a < m /\ f (znth 0 (sel f m) a) = true.
Proof.
  intros H. assert (HI : In (znth 0 (sel f m) a) (sel f m)). { pose proof (zget_Some 0 (sel f m) a H) as HG. unfold zget in HG. destruct (a <? 0); [discriminate HG|]. apply nth_error_In in HG. exact HG. }
  unfold sel in HI at 2. apply filter_In in HI. rewrite In_zseq in HI. auto.
Qed.
Lemma znth_app_l {X} (d : X) a b i : 0 <= i < zlen a -> znth d (a ++ b) i = znth d a i.
Proof. intros H. rewrite znth_app by lia. replace (i <? zlen a) with true by lia. reflexivity. Qed.
Lemma znth_app_r {X} (d : X) a b i : zlen a <= i -> znth d (a ++ b) i = znth d b (i - zlen a).
Proof. intros H. pose proof (zlen_nonneg a). rewrite znth_app by lia. replace (i <? zlen a) with false by lia. reflexivity. Qed.
(** Position and row are inverse to each other. *)
Lemma sel_rank f m a : 0 <= m -> 0 <= a < zlen (sel f m) -> zlen (sel f (znth 0 (sel f m) a)) = a.
Proof.
  intros Hm. revert a. pattern m. apply natlike_ind; auto.
  - intros a Ha. unfold sel in Ha. rewrite zseq_nil in Ha by lia. unfold zlen in Ha. cbn in Ha. lia.
  - clear m Hm. intros m Hm IH a Ha. unfold Z.succ in *. rewrite sel_succ in * by auto. destruct (f m) eqn:Ef.
    + rewrite zlen_app in Ha. change (zlen [m]) with 1 in Ha. destruct (Z.eq_dec a (zlen (sel f m))) as [->|Hn].
      * rewrite znth_app_r by lia. replace (zlen (sel f m) - zlen (sel f m)) with 0 by lia. reflexivity.
      * rewrite znth_app_l by lia. apply IH. lia.
    + rewrite app_nil_r in *. apply IH. auto.
Qed.
Lemma rank_sel f m i : 0 <= i < m -> f i = true -> 0 <= zlen (sel f i) < zlen (sel f m) /\ znth 0 (sel f m) (zlen (sel f i)) = i.
Proof.
  intros Hi Hf. pose proof (zlen_nonneg (sel f i)) as H0.
  pose proof (zlen_sel_succ f i ltac:(lia)) as HS. rewrite Hf in HS. pose proof (sel_mono f (i + 1) m ltac:(lia)) as HM. split; [lia|].
  assert (E : exists t, sel f m = sel f (i + 1) ++ t). { exists (filter f (zseq (i + 1) m)). unfold sel. rewrite (zseq_app 0 (i + 1) m), filter_app by lia. reflexivity. }
  destruct E as [t ->]. rewrite znth_app_l by lia. rewrite sel_succ, Hf by lia. rewrite znth_app_r by lia. replace (zlen (sel f i) - zlen (sel f i)) with 0 by lia. reflexivity.
Qed.

(** Sums over positions are sums over the selected rows. *)
Lemma zsum_znth (l : list Z) (g : Z -> R) : zsum 0 (zlen l) (fun a => g (znth 0 l a)) = lsum g l.
Proof.
  assert (E : l = map (znth 0 l) (zseq 0 (zlen l))).
  { apply (list_ext_znth 0); [rewrite zlen_map, zlen_zseq; pose proof (zlen_nonneg l); lia|].
    intros i Hi. rewrite (znth_map 0 0) by (rewrite zlen_zseq; lia). rewrite znth_zseq by lia. reflexivity. }
  transitivity (lsum g (map (znth 0 l) (zseq 0 (zlen l)))); [rewrite lsum_map; reflexivity|rewrite <- E; reflexivity].
Qed.
Lemma zsum_sel f m (g : Z -> R) : zsum 0 (zlen (sel f m)) (fun a => g (znth 0 (sel f m) a)) = zsum 0 m (fun i => if f i then g i else 0%R).
Proof. rewrite zsum_znth. unfold sel, zsum. rewrite lsum_filter. reflexivity. Qed.
(** The same for a function of the position. *)
Lemma zsum_sel_pos f m (g : Z -> R) : 0 <= m -> zsum 0 (zlen (sel f m)) g = zsum 0 m (fun i => if f i then g (zlen (sel f i)) else 0%R).
Proof.
  intros Hm. rewrite <- (zsum_sel f m (fun i => g (zlen (sel f i)))). apply zsum_ext. intros a Ha. rewrite sel_rank; auto.
Qed.

(** Flags that record f. *)
Definition flags (f : Z -> bool) (m : Z) (rows : list Z) : Prop := zlen rows = m /\ forall i, 0 <= i < m -> znth 0 rows i = if f i then 1 else 0.
Lemma flags_selb f m rows i : flags f m rows -> 0 <= i < m -> selb rows i = f i.
Proof. intros [_ H] Hi. unfold selb. rewrite H by auto. destruct (f i); reflexivity. Qed.
Lemma flags_rank f m rows i : flags f m rows -> 0 <= i <= m -> rank rows i = zlen (sel f i).
Proof.
  intros H Hi. unfold rank, sel. apply (cnt_ext (selb rows) f (zseq 0 i)). intros x Hx. apply In_zseq in Hx. eapply flags_selb; eauto. lia.
Qed.

Lemma subvector_spec {K : NumOps} (v : list K) rows f m : zlen v = m -> flags f m rows ->
  exists r, vf_subvector_byrows v rows = Some r /\ zlen r = zlen (sel f m) /\ forall a, 0 <= a < zlen (sel f m) -> znth n0 r a = znth n0 v (znth 0 (sel f m) a).
Proof.
  intros Hv HF. destruct HF as [Hl HV] eqn:EF. unfold vf_subvector_byrows. replace (zlen v =? zlen rows) with true by lia.
  assert (E : map fst (filter (fun p : K * Z => negb (snd p =? 0)) (combine v rows)) = map (znth n0 v) (sel f m)).
  { assert (Ev : v = map (znth n0 v) (zseq 0 m)).
    { apply (list_ext_znth n0); [rewrite zlen_map, zlen_zseq; pose proof (zlen_nonneg v); lia|].
      intros i Hi. rewrite (znth_map n0 0) by (rewrite zlen_zseq; lia). rewrite znth_zseq by lia. reflexivity. }
    assert (Er : rows = map (znth 0 rows) (zseq 0 m)).
    { apply (list_ext_znth 0); [rewrite zlen_map, zlen_zseq; pose proof (zlen_nonneg rows); lia|].
      intros i Hi. rewrite (znth_map 0 0) by (rewrite zlen_zseq; lia). rewrite znth_zseq by lia. reflexivity. }
    rewrite Ev at 1. rewrite Er at 1. rewrite combine_map. unfold sel.
    assert (HI : forall i, In i (zseq 0 m) -> selb rows i = f i) by (intros i Hi; apply In_zseq in Hi; eapply flags_selb; eauto).
    revert HI. generalize (zseq 0 m). induction l as [|a l IH]; intros HI; [reflexivity|]. cbn [map filter]. cbn [snd].
    change (negb (znth 0 rows a =? 0)) with (selb rows a). rewrite (HI a) by (left; auto). destruct (f a); cbn [map fst]; [f_equal|]; apply IH; intros; apply HI; right; auto. }
  eexists. split; [reflexivity|]. rewrite E. split; [apply zlen_map|]. intros a Ha. rewrite (znth_map n0 0) by auto. reflexivity.
Qed.

Lemma submatrix_spec {K : NumOps} (A : csc K) jz jx rows f : wf A -> flags f (cm A) rows ->
  exists R, csc_submatrix_byrows jz jx A rows = Some R /\ wf R /\ cm R = zlen (sel f (cm A)) /\ cn R = cn A /\ nnz R <= cnzmax R.
Proof.
  intros W HF. pose proof (wf_m _ W) as Hm. destruct (csc_submatrix_byrows_spec A jz jx rows W) as (R & ER & WR & H1 & H2 & _ & _ & _ & _ & H3 & _); [destruct HF; lia|].
  exists R. split; auto. split; auto. split; [rewrite H1; apply (flags_rank f (cm A)); auto; lia|]. split; auto. lia.
Qed.
Lemma submatrix_dense (A R : csc Rops) jz jx rows f : wf A -> flags f (cm A) rows -> csc_submatrix_byrows jz jx A rows = Some R ->
  forall a j, 0 <= a < zlen (sel f (cm A)) -> 0 <= j < cn A -> dns R a j = dns A (znth 0 (sel f (cm A)) a) j.
Proof.
  intros W HF ER a j Ha Hj. pose proof (wf_m _ W) as Hm. destruct (sel_in f (cm A) a Ha) as [H1 H2].
  rewrite <- (csc_submatrix_byrows_dense A jz jx rows R W); auto; [|destruct HF; lia|rewrite (flags_selb f (cm A)); auto].
  rewrite (flags_rank f (cm A)) by (auto; lia). rewrite sel_rank; auto.
Qed.

(** ** classify *)
Section Classify.
  Context {K : NumOps}.
  Variable E : Env K.
  Variables (l u y : list K) (m : Z).
  Hypothesis (Hm : 0 <= m) (Hl : zlen l = m) (Hu : zlen u = m) (Hy : zlen y = m).
  Let inf := nmul (OSQP_INFTY K) (OSQP_MIN_SCALING K).
  (** finite lower bound, finite upper bound, equality *)
  Definition fL i := nltb (znth n0 l i) (znth n0 u i) && nltb (nopp inf) (znth n0 l i).
  Definition fU i := nltb (znth n0 l i) (znth n0 u i) && nltb (znth n0 u i) inf.
  Definition fE i := negb (nltb (znth n0 l i) (znth n0 u i)).

  (** The first positions of [idx] list the rows below t that satisfy f. *)
  Definition lists (f : Z -> bool) (t : Z) (idx : list Z) : Prop := zlen idx = m /\ forall a, 0 <= a < zlen (sel f t) -> znth 0 idx a = znth 0 (sel f t) a.
  Definition flagged (f : Z -> bool) (t : Z) (fl : list Z) : Prop := zlen fl = m /\ forall i, 0 <= i < t -> znth 0 fl i = if f i then 1 else 0.

  Record rows_ok (t : Z) (r : rowsets) : Prop := {
    ro_l : flagged fL t (rs_l r); ro_u : flagged fU t (rs_u r); ro_e : flagged fE t (rs_e r);
    ro_li : lists fL t (rs_li r); ro_ui : lists fU t (rs_ui r); ro_ei : lists fE t (rs_ei r);
    ro_sg : zlen (rs_sg r) = m /\ forall a, 0 <= a < zlen (sel fE t) -> znth 0 (rs_sg r) a = if nleb n0 (znth n0 y (znth 0 (sel fE t) a)) then 1 else -1;
    ro_nl : rs_nl r = zlen (sel fL t); ro_nu : rs_nu r = zlen (sel fU t); ro_ne : rs_ne r = zlen (sel fE t) }.

  Lemma flagged_upd f t fl b : 0 <= t < m -> flagged f t fl -> b = (if f t then 1 else 0) -> exists fl', zset fl t b = Some fl' /\ flagged f (t + 1) fl'.
  Proof.
    intros Ht [HL HV] Hb. rewrite zset_Some by lia. eexists; split; [reflexivity|]. split; [rewrite zlen_upd; auto|].
    intros i Hi. rewrite znth_upd by lia. destruct (Z.eqb_spec i t) as [->|]; [auto|apply HV; lia].
  Qed.
  Lemma lists_upd f t idx : 0 <= t < m -> lists f t idx -> f t = true -> exists idx', zset idx (zlen (sel f t)) t = Some idx' /\ lists f (t + 1) idx'.
  Proof.
    intros Ht [HL HV] Hf. pose proof (zlen_sel_le f t ltac:(lia)) as HS. pose proof (zlen_nonneg (sel f t)). rewrite zset_Some by lia.
    eexists; split; [reflexivity|]. split; [rewrite zlen_upd; auto|]. intros a Ha. rewrite zlen_sel_succ, Hf in Ha by lia.
    rewrite znth_upd by lia. rewrite sel_succ, Hf by lia. destruct (Z.eqb_spec a (zlen (sel f t))) as [->|].
    - rewrite znth_app_r by lia. replace (zlen (sel f t) - zlen (sel f t)) with 0 by lia. reflexivity.
    - rewrite znth_app_l by lia. apply HV. lia.
  Qed.
  Lemma lists_keep f t idx : 0 <= t -> lists f t idx -> f t = false -> lists f (t + 1) idx.
  Proof. intros Ht [HL HV] Hf. split; auto. rewrite sel_succ, Hf, app_nil_r by auto. auto. Qed.

  Lemma classify_spec : exists r, classify E l u y m = Some r /\ rows_ok m r.
  Proof.
    unfold classify. loop_rule (fun t r => rows_ok t r) HR. destruct HR as (r & -> & HI); [auto| | |eexists; split; [reflexivity|exact HI]].
    - assert (HZ : forall f, sel f 0 = []) by (intros; unfold sel; rewrite zseq_nil by lia; reflexivity).
      constructor; cbn [rs_l rs_u rs_e rs_li rs_ui rs_ei rs_sg rs_nl rs_nu rs_ne]; unfold flagged, lists; rewrite ?HZ; try reflexivity;
        (split; [apply zlen_zrep; auto|]); intros ? Hx; unfold zlen in *; cbn [length] in *; lia.
    - intros j r Hj HI. destruct HI. unfold classify_row. fold inf. rewrite (zget_Some n0 l), (zget_Some n0 u) by lia.
      destruct (nltb (znth n0 l j) (znth n0 u j)) eqn:Elu.
      + destruct (flagged_upd fE j (rs_e r) 0) as (re & -> & He); auto; [unfold fE; rewrite Elu; reflexivity|].
        assert (EfE : fE j = false) by (unfold fE; rewrite Elu; reflexivity).
        assert (HA : exists li rl nl, (if nltb (nopp inf) (znth n0 l j) then
              match zset (rs_li r) (rs_nl r) j with Some li => match zset (rs_l r) j 1 with Some rl => Some (li, rl, rs_nl r + 1) | None => None end | None => None end
            else match zset (rs_l r) j 0 with Some rl => Some (rs_li r, rl, rs_nl r) | None => None end) = Some (li, rl, nl) /\
            lists fL (j + 1) li /\ flagged fL (j + 1) rl /\ nl = zlen (sel fL (j + 1))).
        { rewrite zlen_sel_succ by lia. assert (Ef : fL j = nltb (nopp inf) (znth n0 l j)) by (unfold fL; rewrite Elu; reflexivity). rewrite <- Ef. destruct (fL j) eqn:Ej.
          - rewrite ro_nl0. destruct (lists_upd fL j (rs_li r)) as (li & -> & Hli); auto. destruct (flagged_upd fL j (rs_l r) 1) as (rl & -> & Hrl); auto; [rewrite Ej; auto|].
            do 3 eexists. split; [reflexivity|]. split; auto.
          - destruct (flagged_upd fL j (rs_l r) 0) as (rl & -> & Hrl); auto; [rewrite Ej; auto|]. do 3 eexists. split; [reflexivity|]. split; [apply lists_keep; auto; lia|]. split; auto. rewrite ro_nl0; lia. }
        destruct HA as (li & rl & nl & -> & Hli & Hrl & Hnl).
        assert (HB : exists ui ru nu, (if nltb (znth n0 u j) inf then
              match zset (rs_ui r) (rs_nu r) j with Some ui => match zset (rs_u r) j 1 with Some ru => Some (ui, ru, rs_nu r + 1) | None => None end | None => None end
            else match zset (rs_u r) j 0 with Some ru => Some (rs_ui r, ru, rs_nu r) | None => None end) = Some (ui, ru, nu) /\
            lists fU (j + 1) ui /\ flagged fU (j + 1) ru /\ nu = zlen (sel fU (j + 1))).
        { rewrite zlen_sel_succ by lia. assert (Ef : fU j = nltb (znth n0 u j) inf) by (unfold fU; rewrite Elu; reflexivity). rewrite <- Ef. destruct (fU j) eqn:Ej.
          - rewrite ro_nu0. destruct (lists_upd fU j (rs_ui r)) as (ui & -> & Hui); auto. destruct (flagged_upd fU j (rs_u r) 1) as (ru & -> & Hru); auto; [rewrite Ej; auto|].
            do 3 eexists. split; [reflexivity|]. split; auto.
          - destruct (flagged_upd fU j (rs_u r) 0) as (ru & -> & Hru); auto; [rewrite Ej; auto|]. do 3 eexists. split; [reflexivity|]. split; [apply lists_keep; auto; lia|]. split; auto. rewrite ro_nu0; lia. }
        destruct HB as (ui & ru & nu & -> & Hui & Hru & Hnu).
        eexists. split; [reflexivity|]. constructor; cbn [rs_l rs_u rs_e rs_li rs_ui rs_ei rs_sg rs_nl rs_nu rs_ne]; auto.
        * apply lists_keep; auto; lia.
        * rewrite sel_succ, EfE, app_nil_r by lia. auto.
        * rewrite zlen_sel_succ, EfE by lia. lia.
      + assert (EfE : fE j = true) by (unfold fE; rewrite Elu; reflexivity).
        assert (EfL : fL j = false) by (unfold fL; rewrite Elu; reflexivity). assert (EfU : fU j = false) by (unfold fU; rewrite Elu; reflexivity).
        rewrite ro_ne0. destruct (lists_upd fE j (rs_ei r)) as (ei & -> & Hei); auto. destruct (flagged_upd fE j (rs_e r) 1) as (re & -> & Hre); auto; [rewrite EfE; auto|].
        destruct (flagged_upd fL j (rs_l r) 0) as (rl & -> & Hrl); auto; [rewrite EfL; auto|]. destruct (flagged_upd fU j (rs_u r) 0) as (ru & -> & Hru); auto; [rewrite EfU; auto|].
        rewrite (zget_Some n0 y) by lia. destruct ro_sg0 as [Lsg Vsg]. pose proof (zlen_sel_le fE j ltac:(lia)). pose proof (zlen_nonneg (sel fE j)).
        rewrite zset_Some by lia. eexists. split; [reflexivity|].
        constructor; cbn [rs_l rs_u rs_e rs_li rs_ui rs_ei rs_sg rs_nl rs_nu rs_ne]; auto; try (apply lists_keep; auto; lia).
        * split; [rewrite zlen_upd; auto|]. intros a Ha. rewrite zlen_sel_succ, EfE in Ha by lia. rewrite znth_upd by lia. rewrite sel_succ, EfE by lia.
          destruct (Z.eqb_spec a (zlen (sel fE j))) as [->|].
          -- rewrite znth_app_r by lia. replace (zlen (sel fE j) - zlen (sel fE j)) with 0 by lia. reflexivity.
          -- rewrite znth_app_l by lia. apply Vsg. lia.
        * rewrite zlen_sel_succ, EfL by lia. lia.
        * rewrite zlen_sel_succ, EfU by lia. lia.
        * rewrite zlen_sel_succ, EfE by lia. lia.
  Qed.
End Classify.
