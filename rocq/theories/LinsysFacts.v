(** The linear system solver (Linsys.v): invariant, updates, solves. *)
From Coq Require Import ZArith Reals List Bool Lia Lra Permutation.
From Verif Require Import Num Arr ArrFacts RSum Csc CscSpec CscFacts CscFacts2 Scatter CscFacts3 CscFacts5
  Placed Vec Types Kkt KktFacts KktFacts2 KktFacts3 KktSpec KktDense Linsys VecFacts.
Import ListNotations.
Open Scope Z_scope.

(** What is asked of the outside world for memory safety: amd_order returns a permutation and
    QDLDL_solve works in place. *)
Record env_ok {K : NumOps} (E : Env K) : Prop := {
  eo_amd : forall n p i, 0 <= n -> exists perm, env_amd E n p i = Some perm /\ zlen perm = n /\ perm_ok (Some perm) n;
  eo_len : forall M b, zlen (env_ldlsolve E M b) = zlen b }.

(** Permutations of 0..n-1 and sums. *)
Lemma perm_inv (p : list Z) n : 0 <= n -> perm_ok (Some p) n ->
  exists q : list Z, zlen q = n /\ (forall k, 0 <= k < n -> znth 0 q (znth 0 p k) = k) /\
    (forall i, 0 <= i < n -> 0 <= znth 0 q i < n /\ znth 0 p (znth 0 q i) = i) /\ perm_ok (Some q) n.
Proof.
  intros Hn (H1 & H2 & H3). destruct (csc_pinv_spec 0 p n Hn) as (q & _ & HL & Ha & Hb & Hc); eauto.
Qed.

Lemma zsum_reindex (p : list Z) n f : 0 <= n -> perm_ok (Some p) n ->
  zsum 0 n (fun j => f (znth 0 p j)) = zsum 0 n f.
Proof.
  intros Hn HP. destruct (perm_inv p n Hn HP) as (q & _ & Ha & Hb & _). destruct HP as (_ & H2 & H3).
  unfold zsum. transitivity (lsum f (map (znth 0 p) (zseq 0 n))); [rewrite lsum_map; auto|].
  apply lsum_Permutation. apply NoDup_Permutation.
  - assert (HH : forall l, NoDup l -> (forall x, In x l -> 0 <= x < n) -> NoDup (map (znth 0 p) l)).
    { induction 1; cbn [map]; intros Hl; constructor.
      - intros HI. apply in_map_iff in HI as (y & E & Hy). apply H3 in E; [subst; contradiction| |]; apply Hl; simpl; auto.
      - apply IHNoDup. intros; apply Hl; simpl; auto. }
    apply HH; [apply NoDup_zseq|]. intros x Hx. apply In_zseq in Hx. auto.
  - apply NoDup_zseq.
  - intros x. rewrite in_map_iff, In_zseq. split.
    + intros (k & <- & Hk). apply In_zseq in Hk. apply (H2 k Hk).
    + intros Hx. destruct (Hb x Hx) as (Hr & E). exists (znth 0 q x). split; auto. apply In_zseq. auto.
Qed.

Lemma upd_upd {X} (l : list X) i a b : upd (upd l i a) i b = upd l i b.
Proof. revert i. induction l; destruct i; cbn; auto. f_equal; auto. Qed.

Section Gen.
  Context {K : NumOps}.
  Variable E : Env K.
  Hypothesis EO : env_ok E.

  (** Position of an item after permuting rows and columns by q. *)
  Definition pcol (q : list Z) (P A : csc K) (x : kit) : Z := Z.max (znth 0 q (krow P A false x)) (znth 0 q (kcol P A false x)).
  Definition prow (q : list Z) (P A : csc K) (x : kit) : Z := Z.min (znth 0 q (krow P A false x)) (znth 0 q (kcol P A false x)).

  Lemma compose_map_spec t mp len : 0 <= len <= zlen mp ->
    (forall i, 0 <= i < len -> 0 <= znth 0 mp i < zlen t) ->
    exists mp', compose_map t mp len = Some mp' /\ zlen mp' = zlen mp /\
      forall i, 0 <= i < len -> znth 0 mp' i = znth 0 t (znth 0 mp i).
  Proof.
    intros HL HR. unfold compose_map.
    loop_rule (fun k mp' => zlen mp' = zlen mp /\ forall i, znth 0 mp' i =
        if (0 <=? i) && (i <? k) then znth 0 t (znth 0 mp i) else znth 0 mp i) HI.
    destruct HI as (mp' & -> & HL' & HV).
    - lia.
    - split; auto. intros i. replace ((0 <=? i) && (i <? 0)) with false by lia. auto.
    - intros k s Hk (Ls & Vs). rewrite (zget_Some 0 s) by lia. rewrite Vs. replace ((0 <=? k) && (k <? k)) with false by lia.
      rewrite (zget_Some 0 t) by (apply HR; auto). rewrite zset_Some by lia. eexists; split; [reflexivity|].
      rewrite zlen_upd. split; auto. intros i. rewrite znth_upd by lia. rewrite Vs. destruct (Z.eqb_spec i k) as [->|].
      + replace ((0 <=? k) && (k <? k + 1)) with true by lia. auto.
      + replace ((0 <=? i) && (i <? k + 1)) with ((0 <=? i) && (i <? k)) by lia. auto.
    - exists mp'. split; auto. split; auto. intros i Hi. rewrite HV. replace ((0 <=? i) && (i <? len)) with true by lia. auto.
  Qed.

  Lemma symperm_placed {X} (col row : X -> Z) (val : X -> K) items SL (M : csc K) jz jx q N t0 :
    placed col row val items SL M -> NoDup items -> triu M -> cn M = N -> perm_ok (Some q) N -> nnz M <= zlen t0 ->
    exists C t, csc_symperm jz jx M (Some q) (Some t0) = Some (C, Some t) /\ triu C /\ cm C = N /\ cn C = N /\
      nnz C = nnz M /\ zlen t = zlen t0 /\ zlen (cx C) = nnz M /\ cnzmax C = nnz M /\
      placed (fun x => Z.max (znth 0 q (row x)) (znth 0 q (col x))) (fun x => Z.min (znth 0 q (row x)) (znth 0 q (col x)))
        val items (fun x => znth 0 t (SL x)) C.
  Proof.
    intros PL HND HT HN HQ Ht0. pose proof (pl_wf _ _ _ _ _ _ PL) as W. pose proof HT as (Hmn & HT').
    destruct (csc_symperm_spec M jz jx (Some q) (Some t0) W Hmn) as (C & T & Es & WC & TC & HmC & HnC & HnnzC & _ & _ & LCx & ZCx & _ & _ & HM).
    { rewrite HN. auto. } { intros t Ht. inversion Ht; subst; auto. }
    destruct T as [t|]; [|destruct HM]. destruct HM as (Lt & Vt & It).
    assert (HF : sp_items M = pairs M).
    { unfold sp_items. apply filter_all. intros [j k] Hx. apply In_pairs in Hx as [Hj Hk]. cbn [fst snd]. specialize (HT' j k Hj Hk). lia. }
    rewrite HF in *. rewrite zlen_pairs in HnnzC by auto.
    exists C, t. split; [exact Es|]. split; auto. split; [lia|]. split; [lia|]. split; auto. split; auto. split; auto. split; auto.
    assert (HIt : forall x, In x items -> In (col x, SL x) (pairs M) /\ rowi M (SL x) = row x /\ znth n0 (cx M) (SL x) = val x).
    { intros x Hx. destruct (pl_item _ _ _ _ _ _ PL x Hx) as (H1 & H2 & H3 & H4). split; [apply In_pairs|]; auto. }
    assert (HQ' := HQ). destruct HQ' as (_ & HQ2 & _). cbn [pm] in HQ2.
    constructor; auto.
    - assert (HN1 : NoDup (map SL items)).
      { eapply Permutation_NoDup; [apply Permutation_sym, (pl_perm _ _ _ _ _ _ PL)|apply NoDup_zseq]. }
      apply NoDup_Permutation_bis.
      + replace (map (fun x => znth 0 t (SL x)) items) with (map (znth 0 t) (map SL items)) by (rewrite map_map; auto).
        assert (HH : forall l, NoDup l -> (forall s, In s l -> exists x, In x items /\ s = SL x) -> NoDup (map (znth 0 t) l)).
        { induction 1 as [|a l Ha HNl IH]; cbn [map]; intros Hl; constructor.
          - intros HI. apply in_map_iff in HI as (s & Es' & Hs).
            destruct (Hl s) as (x & Hx & ->); [simpl; auto|]. destruct (Hl a) as (y & Hy & ->); [simpl; auto|].
            destruct (HIt x Hx) as (Px & _). destruct (HIt y Hy) as (Py & _).
            specialize (It (col x, SL x) (col y, SL y) Px Py Es'). inversion It as [[Hc Hs2]]. rewrite Hs2 in Hs. contradiction.
          - apply IH. intros; apply Hl; simpl; auto. }
        apply HH; auto. intros s Hs. apply in_map_iff in Hs as (x & <- & Hx). eauto.
      + rewrite map_length. rewrite length_zseq. pose proof (Permutation_length (pl_perm _ _ _ _ _ _ PL)) as HLn.
        rewrite map_length, length_zseq in HLn. lia.
      + intros s Hs. apply in_map_iff in Hs as (x & <- & Hx). destruct (HIt x Hx) as (Px & _).
        destruct (Vt _ _ Px) as (Hr & _ & _). apply In_zseq. apply In_pairs in Px as [Pj Pk].
        pose proof (wf_rows _ W (SL x) (slot_range _ _ _ W Pj Pk)) as Hrow.
        eapply (slot_range C (sp_col M (Some q) (col x, SL x))); auto. unfold sp_col. cbn [fst snd pm].
        pose proof (HQ2 (rowi M (SL x))). pose proof (HQ2 (col x)). lia.
    - intros x Hx. destruct (HIt x Hx) as (Px & Hrow & Hv). destruct (Vt _ _ Px) as (Hr & Hr2 & Hv2).
      unfold sp_col, sp_row in *. cbn [fst snd pm] in *. rewrite Hrow in *. rewrite Hv in Hv2.
      apply In_pairs in Px as [Pj Pk]. pose proof (wf_rows _ W (SL x) (slot_range _ _ _ W Pj Pk)) as Hrw. rewrite Hrow in Hrw.
      pose proof (HQ2 (row x)). pose proof (HQ2 (col x)). split; [lia|]. auto.
  Qed.

  (** Invariant of the linear system solver for the problem matrices P, A; r is the lower right diagonal. *)
  Record ls_ok (ls : linsys K) (P A : csc K) (sigma : K) (r : Z -> K) : Prop := {
    lo_n : ls_n ls = cn P;
    lo_m : ls_m ls = cm A;
    lo_sigma : ls_sigma ls = sigma;
    lo_pol : ls_polishing ls = false;
    lo_plen : zlen (ls_perm ls) = cm A + cn P;
    lo_perm : perm_ok (Some (ls_perm ls)) (cm A + cn P);
    lo_rv : forall v, ls_rho_inv_vec ls = Some v -> zlen v = cm A;
    lo_KKT : ls_KKT ls = Some (ls_fac ls);
    lo_cm : cm (ls_fac ls) = cm A + cn P;
    lo_cn : cn (ls_fac ls) = cm A + cn P;
    lo_triu : triu (ls_fac ls);
    lo_placed : exists q SL,
      perm_ok (Some q) (cm A + cn P) /\
      (forall i, 0 <= i < cm A + cn P -> znth 0 (ls_perm ls) (znth 0 q i) = i) /\
      placed (pcol q P A) (prow q P A) (kval P A sigma r) (kitems P A false) SL (ls_fac ls) /\
      nnz P <= zlen (ls_PtoKKT ls) /\ nnz A <= zlen (ls_AtoKKT ls) /\ cm A <= zlen (ls_rhotoKKT ls) /\
      (forall j k, In (j, k) (pairs P) -> znth 0 (ls_PtoKKT ls) k = SL (IP j k)) /\
      (forall j k, In (j, k) (pairs A) -> znth 0 (ls_AtoKKT ls) k = SL (IA j k)) /\
      (forall j, 0 <= j < cm A -> znth 0 (ls_rhotoKKT ls) j = SL (IR j));
    lo_nz : cnzmax (ls_fac ls) = nnz (ls_fac ls) }.

  Lemma kitems_triu (P A : csc K) : wf P -> wf A -> cn A = cn P -> triu P ->
    forall x, In x (kitems P A false) -> krow P A false x <= kcol P A false x.
  Proof.
    intros WP WA HnA (Hm & HT) x Hx. apply In_kitems in Hx. destruct x as [j k|j|j k|j]; cbn [krow kcol]; try lia.
    - destruct Hx as [Hj Hk]. specialize (HT j k Hj Hk). lia.
    - destruct Hx as [Hj Hk]. pose proof (wf_rows _ WA k (slot_range _ _ _ WA Hj Hk)). lia.
  Qed.

  Lemma recip_loop (rv : list K) m x0 : 0 <= m -> m <= zlen rv -> zlen x0 = m ->
    exists x, for_ 0 m (fun i x => match zget rv i with Some r => zset x i (ndiv n1 r) | None => None end) x0 = Some x /\
      zlen x = m /\ forall i, 0 <= i < m -> znth n0 x i = ndiv n1 (znth n0 rv i).
  Proof.
    intros Hm HL Hx0. rewrite (for_ext _ _ _ (fun i x => zset x i (ndiv n1 (znth n0 rv i)))).
    2:{ intros i s Hi. rewrite (zget_Some n0) by lia. auto. }
    destruct (for_fill n0 (fun i => ndiv n1 (znth n0 rv i)) m x0) as (x & -> & Lx & Vx); [lia|].
    exists x. split; auto. split; [lia|]. intros i Hi. rewrite Vx. replace ((0 <=? i) && (i <? m)) with true by lia. auto.
  Qed.

  (** rho_inv for constraint j. *)
  Definition rinv (ls : linsys K) (j : Z) : K :=
    match ls_rho_inv_vec ls with Some v => znth n0 v j | None => ls_rho_inv ls end.

  Lemma init_linsys_spec (P A : csc K) rho_vec st :
    wf P -> triu P -> wf A -> cn A = cn P ->
    (forall v, rho_vec = Some v -> cm A <= zlen v) ->
    exists res, init_linsys_solver E P A rho_vec st false = Some res /\
       exists ls, (res = (OSQP_NONCVX_ERROR, None) /\ LDL_factor E (ls_fac ls) (cn P) < 0 \/
                   res = (OSQP_NO_ERROR, Some ls) /\ LDL_factor E (ls_fac ls) (cn P) = 0) /\
         ls_rho_inv ls = ndiv n1 (st_rho st) /\
         match rho_vec with
         | None => ls_rho_inv_vec ls = None
         | Some v => exists x, ls_rho_inv_vec ls = Some x /\ zlen x = cm A /\ forall i, 0 <= i < cm A -> znth n0 x i = ndiv n1 (znth n0 v i)
         end /\
         ls_ok ls P A (st_sigma st) (fun j => nsub n0 (rinv ls j)).
  Proof.
    intros WP TP WA HnA HRV. pose proof (wf_n _ WP) as HnP. pose proof (wf_m _ WA) as HmA.
    pose proof (nnz_nonneg P WP) as HnnP. pose proof (nnz_nonneg A WA) as HnnA.
    unfold init_linsys_solver. cbv zeta.
    assert (HRR : exists rhov, match rho_vec with
            | None => Some None
            | Some rv => match for_ 0 (cm A) (fun i x => match zget rv i with Some r => zset x i (ndiv n1 r) | None => None end) (zrep (cm A) (env_jx E)) with Some x => Some (Some x) | None => None end
            end = Some rhov /\
         match rho_vec with
         | None => rhov = None
         | Some v => exists x, rhov = Some x /\ zlen x = cm A /\ forall i, 0 <= i < cm A -> znth n0 x i = ndiv n1 (znth n0 v i)
         end).
    { destruct rho_vec as [v|]; [|eauto]. specialize (HRV v eq_refl).
      destruct (recip_loop v (cm A) (zrep (cm A) (env_jx E)) HmA HRV) as (x & -> & Lx & Vx); [rewrite zlen_zrep; lia|].
      exists (Some x). split; auto. exists x. auto. }
    destruct HRR as (rhov & -> & HRH). rewrite zget_nnz by auto.
    replace (zget (cp A) (cn P)) with (Some (nnz A)) by (rewrite <- HnA, zget_nnz by auto; auto).
    assert (Hrl : forall w, rhov = Some w -> zlen w = cm A).
    { intros w ->. destruct rho_vec as [v|]; [|discriminate]. destruct HRH as (x & Ex & Lx & _). inversion Ex; subst; auto. }
    destruct (form_KKT_spec P A WP WA (proj1 TP) HnA (env_jz E) (env_jx E) (st_sigma st) rhov (ndiv n1 (st_rho st))
       (Some (zrep (nnz P) (env_jz E))) (Some (zrep (nnz A) (env_jz E))) (Some (zrep (cm A) (env_jz E))))
      as (M & mP & mA & mR & -> & PL & HcM & HnM & HnnM & _ & _ & _ & _ & MP & MA & MR).
    { intros w Hw. specialize (Hrl w Hw). lia. }
    { intros t Ht. inversion Ht. rewrite zlen_zrep; lia. }
    { intros t Ht. inversion Ht. rewrite zlen_zrep; lia. }
    { intros t Ht. inversion Ht. rewrite zlen_zrep; lia. }
    unfold kmap, mapspec, mapinv in MP, MA, MR.
    destruct mP as [mP|]; [|destruct MP]. destruct mA as [mA|]; [|destruct MA]. destruct mR as [mR|]; [|destruct MR].
    destruct MP as (LP & VP). destruct MA as (LA & VA). destruct MR as (LR & VR).
    rewrite zlen_zrep in LP, LA, LR by lia.
    assert (TM : triu M).
    { eapply placed_triu; [exact PL|lia|]. apply kitems_triu; auto. }
    set (N := cm A + cn P) in *.
    unfold permute_KKT. destruct (eo_amd _ EO (cn M) (cp M) (ci M)) as (perm & -> & Lperm & Pperm); [unfold N in *; lia|].
    rewrite HnM in Lperm, Pperm |- *.
    destruct Pperm as (Pp1 & Pp2 & Pp3).
    destruct (csc_pinv_spec (env_jz E) perm N ltac:(unfold N; lia) ltac:(lia) Pp2 Pp3) as (q & -> & Lq & Vq1 & Vq2 & Pq).
    replace (zget (cp M) N) with (Some (nnz M)) by (rewrite <- HnM, zget_nnz; auto; apply PL).
    assert (Hnn : 0 <= nnz M) by (rewrite HnnM; apply zlen_nonneg).
    destruct (symperm_placed _ _ _ _ _ M (env_jz E) (env_jx E) q N (zrep (nnz M) (env_jz E)) PL (NoDup_kitems P A false) TM HnM Pq)
      as (C & t & -> & TC & HmC & HnC & HnnC & Lt & LCx & ZCx & PLC); [rewrite zlen_zrep; lia|].
    cbn [snd fst]. rewrite zlen_zrep in Lt by auto.
    assert (Hslot : forall x, In x (kitems P A false) -> 0 <= ksl P A false x < zlen t).
    { intros x Hx. rewrite Lt. apply (placed_slot _ _ _ _ _ _ PL x Hx). }
    assert (HpkP : forall k, 0 <= k < nnz P -> exists j, In (j, k) (pairs P)).
    { intros k Hk. assert (HI : In k (map snd (pairs P))) by (rewrite map_snd_pairs by auto; apply In_zseq; auto).
      apply in_map_iff in HI as ([j k'] & Ek & HI). cbn [snd] in Ek. subst. eauto. }
    assert (HpkA : forall k, 0 <= k < nnz A -> exists j, In (j, k) (pairs A)).
    { intros k Hk. assert (HI : In k (map snd (pairs A))) by (rewrite map_snd_pairs by auto; apply In_zseq; auto).
      apply in_map_iff in HI as ([j k'] & Ek & HI). cbn [snd] in Ek. subst. eauto. }
    assert (HIP : forall j k, In (j, k) (pairs P) -> In (IP j k) (kitems P A false)).
    { intros j k HI. apply In_kitems. apply In_pairs in HI. auto. }
    assert (HIA : forall j k, In (j, k) (pairs A) -> In (IA j k) (kitems P A false)).
    { intros j k HI. apply In_kitems. apply In_pairs in HI. auto. }
    destruct (compose_map_spec t mP (nnz P)) as (mP' & -> & LP' & VP'); [lia| |].
    { intros k Hk. destruct (HpkP k Hk) as (j & HI). pose proof (VP _ HI) as Ev. cbn [snd] in Ev. rewrite Ev. apply Hslot. unfold kIP. cbn [fst snd]. auto. }
    destruct (compose_map_spec t mA (nnz A)) as (mA' & -> & LA' & VA'); [lia| |].
    { intros k Hk. destruct (HpkA k Hk) as (j & HI). pose proof (VA _ HI) as Ev. cbn [snd] in Ev. rewrite Ev. apply Hslot. unfold kIA. cbn [fst snd]. auto. }
    destruct (compose_map_spec t mR (cm A)) as (mR' & -> & LR' & VR'); [lia| |].
    { intros k Hk. rewrite VR by (apply In_zseq; auto). apply Hslot. apply In_kitems. auto. }
    assert (HF : LDL_factor E C (cn P) <= 0).
    { unfold LDL_factor. destruct (env_fac E C <? 0) eqn:E1; [lia|]. destruct (env_fac E C <? cn P); lia. }
    match goal with |- context [Some (OSQP_NO_ERROR, Some ?l)] => set (LS := l) end.
    exists (if LDL_factor E C (cn P) <? 0 then (OSQP_NONCVX_ERROR, None) else (OSQP_NO_ERROR, Some LS)).
    split; [destruct (LDL_factor E C (cn P) <? 0); reflexivity|]. exists LS. subst LS.
    cbn [ls_fac ls_rho_inv ls_rho_inv_vec]. split.
    { destruct (Z.ltb_spec (LDL_factor E C (cn P)) 0) as [Hf|Hf]; [left; auto|right; split; [auto|lia]]. }
    split; auto. split. { destruct rho_vec; auto. }
    constructor; cbn [ls_n ls_m ls_sigma ls_polishing ls_perm ls_rho_inv_vec ls_KKT ls_fac ls_PtoKKT ls_AtoKKT ls_rhotoKKT]; auto.
    { split; auto. }
    2:{ lia. }
    exists q, (fun x => znth 0 t (ksl P A false x)). split; auto. split; [intros i Hi; apply Vq2; auto|]. split.
    { eapply placed_ext; [exact PLC|]. intros x Hx. repeat split; auto. }
    repeat (split; [lia|]). split; [|split].
    - intros j k HI. pose proof HI as HI'. apply In_pairs in HI' as [Hj Hk].
      rewrite VP' by (eapply slot_range; eauto). pose proof (VP _ HI) as Ev. cbn [snd] in Ev. rewrite Ev. auto.
    - intros j k HI. pose proof HI as HI'. apply In_pairs in HI' as [Hj Hk].
      rewrite VA' by (eapply slot_range; eauto). pose proof (VA _ HI) as Ev. cbn [snd] in Ev. rewrite Ev. auto.
    - intros j Hj. rewrite VR' by auto. rewrite VR by (apply In_zseq; auto). auto.
  Qed.

  (** The entries k addressed by an index array of length n (no array: the first n entries). *)
  Definition touched (idx : option (list Z)) (n k : Z) : Prop :=
    match idx with None => 0 <= k < n | Some d => exists j, 0 <= j < n /\ znth 0 d j = k end.

  (** The index array can be read and addresses entries below nz. *)
  Definition idx_ok (idx : option (list Z)) (n nz : Z) : Prop :=
    match idx with None => n <= nz | Some d => n <= zlen d /\ forall j, 0 <= j < n -> 0 <= znth 0 d j < nz end.

  Lemma pairs_ex (M : csc K) k : wf M -> 0 <= k < nnz M -> exists j, In (j, k) (pairs M).
  Proof.
    intros W Hk. assert (HI : In k (map snd (pairs M))) by (rewrite map_snd_pairs by auto; apply In_zseq; auto).
    apply in_map_iff in HI as ([j k'] & Ek & HI). cbn [snd] in Ek. subst. eauto.
  Qed.

  (** Writing new values v k at the slots sl k of the addressed entries k. *)
  Lemma write_touched (sl : Z -> Z) (v : Z -> K) idx n nz (x : list K)
        (body : Z -> Z -> list K -> option (list K)) :
    idx_ok idx n nz -> 0 <= n ->
    (forall k, 0 <= k < nz -> 0 <= sl k < zlen x) ->
    (forall k k', 0 <= k < nz -> 0 <= k' < nz -> sl k = sl k' -> k = k') ->
    (forall j k s, zlen s = zlen x -> 0 <= k < nz -> body j k s = Some (upd s (Z.to_nat (sl k)) (v k))) ->
    exists x', for_ 0 n (fun j s => match (match idx with None => Some j | Some d => zget d j end) with
                 Some k => body j k s | None => None end) x = Some x' /\
      zlen x' = zlen x /\ (forall k, touched idx n k -> znth n0 x' (sl k) = v k) /\
      (forall s, (forall k, touched idx n k -> s <> sl k) -> znth n0 x' s = znth n0 x s).
  Proof.
    intros HI Hn HS Hinj HB.
    loop_rule (fun t s => zlen s = zlen x /\ (forall k, touched idx t k -> znth n0 s (sl k) = v k) /\
      (forall i, (forall k, touched idx t k -> i <> sl k) -> znth n0 s i = znth n0 x i)) HR.
    destruct HR as (x' & -> & HL & HV & HO); [auto| | |].
    - split; auto. split; auto. intros k Hk. destruct idx as [d|]; cbn in Hk; [destruct Hk as (j & Hj & _)|]; lia.
    - intros j s Hj (Ls & Vs & Os).
      assert (HK : exists k, match idx with None => Some j | Some d => zget d j end = Some k /\ 0 <= k < nz /\ touched idx (j + 1) k /\
                (forall i, touched idx (j + 1) i <-> touched idx j i \/ i = k)).
      { destruct idx as [d|]; cbn [idx_ok touched] in *.
        - destruct HI as (H1 & H2). exists (znth 0 d j). rewrite (zget_Some 0) by lia. split; auto. split; [apply H2; auto|].
          split; [exists j; split; auto; lia|]. intros i. split.
          + intros (a & Ha & <-). destruct (Z.eq_dec a j) as [->|]; auto. left. exists a. split; auto; lia.
          + intros [(a & Ha & <-)| ->]; [exists a|exists j]; split; auto; lia.
        - exists j. split; auto. split; [lia|]. split; [lia|]. intros; lia. }
      destruct HK as (k & -> & Hk & HT & HTT). rewrite HB by auto. eexists; split; [reflexivity|].
      rewrite zlen_upd. split; auto. split.
      + intros i Hi. apply HTT in Hi.
        assert (Hi' : touched idx j i \/ i = k) by auto. rewrite znth_upd by (rewrite Ls; auto).
        destruct (Z.eqb_spec (sl i) (sl k)) as [e|ne].
        * f_equal. symmetry. apply Hinj; auto. destruct Hi as [Hi| ->]; auto. destruct idx as [d|]; cbn [idx_ok touched] in *; [|lia].
          destruct Hi as (a & Ha & <-). apply HI. lia.
        * destruct Hi as [Hi| ->]; [auto|congruence].
      + intros i Hi. rewrite znth_upd by (rewrite Ls; auto).
        assert (sl k <> i) by (intros <-; apply (Hi k HT); auto).
        destruct (Z.eqb_spec i (sl k)); [congruence|]. apply Os. intros k' Hk'. apply Hi. apply HTT. auto.
    - eexists; split; [reflexivity|]. auto.
  Qed.

  Lemma update_linsys_matrices_spec ls (P A : csc K) sigma r px ax Pidx Pn Aidx An :
    wf P -> wf A -> cm P = cn P -> cn A = cn P -> ls_ok ls P A sigma r ->
    nnz P <= zlen px -> nnz A <= zlen ax ->
    idx_ok Pidx Pn (nnz P) -> idx_ok Aidx An (nnz A) ->
    (forall k, 0 <= k < nnz P -> touched Pidx Pn k \/ znth n0 px k = znth n0 (cx P) k) ->
    (forall k, 0 <= k < nnz A -> touched Aidx An k \/ znth n0 ax k = znth n0 (cx A) k) ->
    exists ls', update_linsys_matrices E ls (set_x P px) Pidx Pn (set_x A ax) Aidx An
        = Some (if env_fac E (ls_fac ls') =? cn P then 0 else 1, ls') /\
      ls_ok ls' (set_x P px) (set_x A ax) sigma r /\
      ls_rho_inv ls' = ls_rho_inv ls /\ ls_rho_inv_vec ls' = ls_rho_inv_vec ls.
  Proof.
    intros WP WA HmP HnA LO Hpx Hax HIP HIA HtP HtA.
    destruct LO as [On Om Os Opol Opl Op Orv OK Ocm Ocn Otr (q & SL & Hq & Hqi & PL & LP & LA & LR & VP & VA & VR)].
    unfold update_linsys_matrices. rewrite OK. set (M := ls_fac ls) in *.
    assert (WP' : wf (set_x P px)) by (apply wf_set_x; auto). assert (WA' : wf (set_x A ax)) by (apply wf_set_x; auto).
    assert (HinP : forall j k, In (j, k) (pairs P) -> In (IP j k) (kitems P A false)).
    { intros j k HI. apply In_kitems. apply In_pairs in HI. auto. }
    assert (HinA : forall j k, In (j, k) (pairs A) -> In (IA j k) (kitems P A false)).
    { intros j k HI. apply In_kitems. apply In_pairs in HI. auto. }
    assert (HslP : forall k, 0 <= k < nnz P -> exists j, In (j, k) (pairs P) /\ znth 0 (ls_PtoKKT ls) k = SL (IP j k) /\ 0 <= SL (IP j k) < zlen (cx M)).
    { intros k Hk. destruct (pairs_ex P k WP Hk) as (j & HI). exists j. split; auto. split; auto. apply (placed_slot _ _ _ _ _ _ PL _ (HinP _ _ HI)). }
    assert (HslA : forall k, 0 <= k < nnz A -> exists j, In (j, k) (pairs A) /\ znth 0 (ls_AtoKKT ls) k = SL (IA j k) /\ 0 <= SL (IA j k) < zlen (cx M)).
    { intros k Hk. destruct (pairs_ex A k WA Hk) as (j & HI). exists j. split; auto. split; auto. apply (placed_slot _ _ _ _ _ _ PL _ (HinA _ _ HI)). }
    assert (Hinj : forall x y, In x (kitems P A false) -> In y (kitems P A false) -> SL x = SL y -> x = y).
    { intros x y Hx Hy Exy. eapply placed_inj; eauto. apply NoDup_kitems. }
    set (vP := fun k => if (colp P (rowi P k) <? colp P (rowi P k + 1)) && (colp P (rowi P k + 1) - 1 =? k)
                        then nadd (znth n0 px k) sigma else znth n0 px k).
    assert (HvP : forall j k, In (j, k) (pairs P) -> vP k = kval (set_x P px) (set_x A ax) sigma r (IP j k)).
    { intros j k HI. apply In_pairs in HI as [Hj Hk]. pose proof (wf_rows _ WP k (slot_range _ _ _ WP Hj Hk)) as Hr.
      unfold vP, kval, is_dit. cbn [cx set_x]. unfold miss. cbn [set_x colp cp rowi ci].
      change (colp (set_x P px)) with (colp P). change (rowi (set_x P px)) with (rowi P).
      destruct (Z.eq_dec (rowi P k) j) as [Ej|Ej].
      - rewrite Ej. destruct (Z.eqb_spec k (colp P (j + 1) - 1)) as [Ek|Ek].
        + rewrite <- Ek, Ej, Z.eqb_refl. replace (colp P j <? colp P (j + 1)) with true by lia. rewrite Z.eqb_refl.
          replace (colp P j =? colp P (j + 1)) with false by lia. auto.
        + rewrite andb_false_r. replace (colp P (j + 1) - 1 =? k) with false by lia. rewrite andb_false_r. auto.
      - assert (Hd : (colp P (rowi P k) <? colp P (rowi P k + 1)) && (colp P (rowi P k + 1) - 1 =? k) = false).
        { apply andb_false_iff. destruct (Z.ltb_spec (colp P (rowi P k)) (colp P (rowi P k + 1))); auto. right.
          destruct (Z.eqb_spec (colp P (rowi P k + 1) - 1) k) as [Ek|]; auto. exfalso. apply Ej.
          apply (slot_col_iff P j (rowi P k) k WP Hj Hk); lia. }
        rewrite Hd. destruct (Z.eqb_spec k (colp P (j + 1) - 1)) as [Ek|Ek]; [|rewrite andb_false_r; auto].
        rewrite <- Ek. replace (rowi P k =? j) with false by lia. rewrite orb_true_r. auto. }
    (* P *)
    assert (HX1 : exists x1, update_KKT_P (cx M) (set_x P px) Pidx Pn (ls_PtoKKT ls) (ls_sigma ls) false = Some x1 /\
       zlen x1 = zlen (cx M) /\ (forall k, touched Pidx Pn k -> znth n0 x1 (znth 0 (ls_PtoKKT ls) k) = vP k) /\
       (forall s, (forall k, touched Pidx Pn k -> s <> znth 0 (ls_PtoKKT ls) k) -> znth n0 x1 s = znth n0 (cx M) s)).
    { unfold update_KKT_P. destruct (Z.leb_spec Pn 0) as [H0|H0].
      - eexists; split; [reflexivity|]. split; auto. split; auto. intros k Hk. destruct Pidx; cbn in Hk; [destruct Hk as (? & ? & _)|]; lia.
      - apply write_touched with (nz := nnz P); auto; [lia| | |].
        + intros k Hk. destruct (HslP k Hk) as (j & _ & -> & ?). auto.
        + intros k k' Hk Hk' Ek. destruct (HslP k Hk) as (j & HI & E1 & _). destruct (HslP k' Hk') as (j' & HI' & E2 & _).
          rewrite E1, E2 in Ek. apply Hinj in Ek; auto. congruence.
        + intros j k s Ls Hk. destruct (HslP k Hk) as (j' & HI & E1 & Hsl).
          rewrite (zget_Some 0) by lia. cbn [cx ci cp set_x]. rewrite (zget_Some n0) by lia.
          rewrite zset_Some by lia. pose proof (wf_rows _ WP k Hk) as Hr.
          pose proof (wf_ilen _ WP) as Hil. rewrite (zget_Some 0) by lia. change (znth 0 (ci P) k) with (rowi P k).
          rewrite !zget_colp by (auto; lia). unfold kofs.
          unfold vP. rewrite Os. destruct ((colp P (rowi P k) <? colp P (rowi P k + 1)) && (colp P (rowi P k + 1) - 1 =? k)); auto.
          rewrite (zget_Some n0) by (rewrite zlen_upd; lia). rewrite znth_upd by lia. rewrite Z.eqb_refl.
          rewrite zset_Some by (rewrite zlen_upd; lia). f_equal. apply upd_upd. }
    destruct HX1 as (x1 & -> & L1 & V1 & O1).
    assert (HX2 : exists x2, update_KKT_A x1 (set_x A ax) Aidx An (ls_AtoKKT ls) = Some x2 /\
       zlen x2 = zlen x1 /\ (forall k, touched Aidx An k -> znth n0 x2 (znth 0 (ls_AtoKKT ls) k) = znth n0 ax k) /\
       (forall s, (forall k, touched Aidx An k -> s <> znth 0 (ls_AtoKKT ls) k) -> znth n0 x2 s = znth n0 x1 s)).
    { unfold update_KKT_A. destruct (Z.leb_spec An 0) as [H0|H0].
      - eexists; split; [reflexivity|]. split; auto. split; auto. intros k Hk. destruct Aidx; cbn in Hk; [destruct Hk as (? & ? & _)|]; lia.
      - apply write_touched with (nz := nnz A); auto; [lia| | |].
        + intros k Hk. destruct (HslA k Hk) as (j & _ & -> & ?). lia.
        + intros k k' Hk Hk' Ek. destruct (HslA k Hk) as (j & HI & E1 & _). destruct (HslA k' Hk') as (j' & HI' & E2 & _).
          rewrite E1, E2 in Ek. apply Hinj in Ek; auto. congruence.
        + intros j k s Ls Hk. destruct (HslA k Hk) as (j' & HI & E1 & Hsl).
          rewrite (zget_Some 0) by lia. cbn [cx set_x]. rewrite (zget_Some n0) by lia. rewrite zset_Some by lia. auto. }
    destruct HX2 as (x2 & -> & L2 & V2 & O2).
    exists (set_ls_fac (set_x M x2) (set_ls_KKT (Some (set_x M x2)) ls)). split; [reflexivity|].
    cbn [ls_fac set_ls_fac set_ls_KKT ls_rho_inv ls_rho_inv_vec]. split; auto.
    assert (HtrP : forall k, touched Pidx Pn k -> 0 <= k < nnz P).
    { intros k Hk. destruct Pidx; cbn [touched idx_ok] in *; [destruct Hk as (a & Ha & <-); apply HIP; auto|lia]. }
    assert (HtrA : forall k, touched Aidx An k -> 0 <= k < nnz A).
    { intros k Hk. destruct Aidx; cbn [touched idx_ok] in *; [destruct Hk as (a & Ha & <-); apply HIA; auto|lia]. }
    constructor; cbn [ls_n ls_m ls_sigma ls_polishing ls_perm ls_rho_inv_vec ls_KKT ls_fac ls_PtoKKT ls_AtoKKT ls_rhotoKKT set_ls_fac set_ls_KKT set_x cm cn]; auto.
    exists q, SL. split; auto. split; auto. split.
    2:{ repeat (split; [exact LP||exact LA||exact LR|]). split; [exact VP|split; [exact VA|exact VR]]. }
    change (pcol q (set_x P px) (set_x A ax)) with (pcol q P A).
    change (prow q (set_x P px) (set_x A ax)) with (prow q P A).
    change (kitems (set_x P px) (set_x A ax) false) with (kitems P A false).
    eapply placed_set_x; [exact PL|lia|]. intros y Hy.
    pose proof (pl_item _ _ _ _ _ _ PL y Hy) as (_ & _ & _ & Hv).
    assert (HnoA : (forall k, y <> IA k (-1)) -> True) by auto.
    assert (HA0 : (forall j k, y <> IA j k) -> znth n0 x2 (SL y) = znth n0 x1 (SL y)).
    { intros Hne. apply O2. intros k Hk Es. destruct (HslA k (HtrA k Hk)) as (j & HI & E1 & _). rewrite E1 in Es.
      apply Hinj in Es; auto. eapply Hne; eauto. }
    assert (HP0 : (forall j k, y <> IP j k) -> znth n0 x1 (SL y) = znth n0 (cx M) (SL y)).
    { intros Hne. apply O1. intros k Hk Es. destruct (HslP k (HtrP k Hk)) as (j & HI & E1 & _). rewrite E1 in Es.
      apply Hinj in Es; auto. eapply Hne; eauto. }
    destruct y as [j k|j|j k|j].
    - rewrite HA0 by discriminate. pose proof Hy as Hy'. apply In_kitems in Hy'.
      assert (HI : In (j, k) (pairs P)) by (apply In_pairs; auto).
      assert (Hk : 0 <= k < nnz P) by (destruct Hy'; eapply slot_range; eauto).
      rewrite <- (HvP j k HI).
      assert (HD : touched Pidx Pn k \/ (forall s, touched Pidx Pn s -> SL (IP j k) <> znth 0 (ls_PtoKKT ls) s)).
      { destruct Pidx as [d|]; cbn [touched].
        - destruct (in_dec Z.eq_dec k (map (znth 0 d) (zseq 0 Pn))) as [Hin|Hin].
          + left. apply in_map_iff in Hin as (a & Ea & Ha). apply In_zseq in Ha. eauto.
          + right. intros s Hs Es. destruct (HslP s (HtrP s Hs)) as (j' & HI' & E1 & _). rewrite E1 in Es. apply Hinj in Es; auto.
            inversion Es; subst. destruct Hs as (a & Ha & Ea). apply Hin. apply in_map_iff. exists a. split; auto. apply In_zseq. auto.
        - destruct (Z_lt_dec k Pn); [left; lia|right]. intros s Hs Es. destruct (HslP s (HtrP s Hs)) as (j' & HI' & E1 & _). rewrite E1 in Es.
          apply Hinj in Es; auto. inversion Es; subst. lia. }
      destruct HD as [HD|HD].
      + rewrite <- (VP j k HI). apply V1; auto.
      + rewrite O1 by auto. rewrite Hv. destruct (HtP k Hk) as [HT|HT].
        * exfalso. apply (HD k HT). symmetry. apply VP; auto.
        * rewrite (HvP j k HI). unfold kval, is_dit. cbn [cx set_x]. rewrite HT. auto.
    - rewrite HA0, HP0 by discriminate. rewrite Hv. auto.
    - pose proof Hy as Hy'. apply In_kitems in Hy'.
      assert (HI : In (j, k) (pairs A)) by (apply In_pairs; auto).
      assert (Hk : 0 <= k < nnz A) by (destruct Hy'; eapply slot_range; eauto).
      assert (HD : touched Aidx An k \/ (forall s, touched Aidx An s -> SL (IA j k) <> znth 0 (ls_AtoKKT ls) s)).
      { destruct Aidx as [d|]; cbn [touched].
        - destruct (in_dec Z.eq_dec k (map (znth 0 d) (zseq 0 An))) as [Hin|Hin].
          + left. apply in_map_iff in Hin as (a & Ea & Ha). apply In_zseq in Ha. eauto.
          + right. intros s Hs Es. destruct (HslA s (HtrA s Hs)) as (j' & HI' & E1 & _). rewrite E1 in Es. apply Hinj in Es; auto.
            inversion Es; subst. destruct Hs as (a & Ha & Ea). apply Hin. apply in_map_iff. exists a. split; auto. apply In_zseq. auto.
        - destruct (Z_lt_dec k An); [left; lia|right]. intros s Hs Es. destruct (HslA s (HtrA s Hs)) as (j' & HI' & E1 & _). rewrite E1 in Es.
          apply Hinj in Es; auto. inversion Es; subst. lia. }
      cbn [kval]. cbn [cx set_x]. destruct HD as [HD|HD].
      + rewrite <- (VA j k HI). apply V2; auto.
      + rewrite O2, HP0 by (auto; discriminate). rewrite Hv. destruct (HtA k Hk) as [HT|HT].
        * exfalso. apply (HD k HT). symmetry. apply VA; auto.
        * cbn [kval]. auto.
    - rewrite HA0, HP0 by discriminate. rewrite Hv. auto.
  Qed.

  Lemma update_linsys_rho_spec ls (P A : csc K) sigma r rho_vec rho_sc :
    wf P -> wf A -> ls_ok ls P A sigma r ->
    (ls_rho_inv_vec ls <> None -> exists v, rho_vec = Some v /\ cm A <= zlen v) ->
    exists ls', update_linsys_rho_vec E ls rho_vec rho_sc = Some (if env_fac E (ls_fac ls') <? 0 then 1 else 0, ls') /\
      ls_ok ls' P A sigma (fun j => nopp (rinv ls' j)) /\
      match ls_rho_inv_vec ls with
      | None => ls_rho_inv_vec ls' = None /\ ls_rho_inv ls' = ndiv n1 rho_sc
      | Some _ => ls_rho_inv ls' = ls_rho_inv ls /\ exists x, ls_rho_inv_vec ls' = Some x /\ zlen x = cm A /\
          forall v i, rho_vec = Some v -> 0 <= i < cm A -> znth n0 x i = ndiv n1 (znth n0 v i)
      end.
  Proof.
    intros WP WA LO HRV. pose proof (wf_m _ WA) as HmA.
    destruct LO as [On Om Os Opol Opl Op Orv OK Ocm Ocn Otr (q & SL & Hq & Hqi & PL & LP & LA & LR & VP & VA & VR)].
    unfold update_linsys_rho_vec. rewrite Om.
    assert (HL1 : exists ls1, match ls_rho_inv_vec ls with
          | Some x => match rho_vec with Some rv =>
               match for_ 0 (cm A) (fun i x => match zget rv i with Some r => zset x i (ndiv n1 r) | None => None end) x with
               | Some x => Some (set_ls_rho_inv_vec (Some x) ls) | None => None end | None => None end
          | None => Some (set_ls_rho_inv (ndiv n1 rho_sc) ls)
          end = Some ls1 /\
      ls_KKT ls1 = ls_KKT ls /\ ls_fac ls1 = ls_fac ls /\ ls_n ls1 = ls_n ls /\ ls_m ls1 = ls_m ls /\ ls_sigma ls1 = ls_sigma ls /\
      ls_polishing ls1 = ls_polishing ls /\ ls_perm ls1 = ls_perm ls /\ ls_PtoKKT ls1 = ls_PtoKKT ls /\
      ls_AtoKKT ls1 = ls_AtoKKT ls /\ ls_rhotoKKT ls1 = ls_rhotoKKT ls /\ (forall v, ls_rho_inv_vec ls1 = Some v -> zlen v = cm A) /\
      match ls_rho_inv_vec ls with
      | None => ls_rho_inv_vec ls1 = None /\ ls_rho_inv ls1 = ndiv n1 rho_sc
      | Some _ => ls_rho_inv ls1 = ls_rho_inv ls /\ exists x, ls_rho_inv_vec ls1 = Some x /\ zlen x = cm A /\
          forall v i, rho_vec = Some v -> 0 <= i < cm A -> znth n0 x i = ndiv n1 (znth n0 v i)
      end).
    { destruct (ls_rho_inv_vec ls) as [x0|] eqn:EX.
      - destruct HRV as (v & -> & Hv); [discriminate|].
        destruct (recip_loop v (cm A) x0 HmA Hv (Orv _ eq_refl)) as (x & -> & Lx & Vx).
        eexists; split; [reflexivity|]. cbn. repeat (split; [solve [auto]|]).
        split; [intros w Hw; inversion Hw; subst; auto|]. split; auto. exists x. split; auto. split; auto.
        intros w i Hw Hi. inversion Hw; subst. auto.
      - eexists; split; [reflexivity|]. cbn. repeat (split; [solve [auto]|]). split; [rewrite EX; discriminate|]. split; auto. }
    destruct HL1 as (ls1 & -> & E1 & E2 & E3 & E4 & E5 & E6 & E7 & E8 & E9 & E10 & Hrl & HRR).
    rewrite E1, OK, E10. unfold update_KKT_param2.
    assert (HR : forall j, 0 <= j < cm A -> match ls_rho_inv_vec ls1 with Some w => zget w j | None => Some (ls_rho_inv ls1) end = Some (rinv ls1 j)).
    { intros j Hj. unfold rinv. destruct (ls_rho_inv_vec ls1) as [w|]; auto. specialize (Hrl w eq_refl). apply zget_Some. lia. }
    set (M := ls_fac ls) in *.
    assert (Hsl : forall j, 0 <= j < cm A -> In (IR j) (kitems P A false) /\ 0 <= SL (IR j) < zlen (cx M)).
    { intros j Hj. assert (HI : In (IR j) (kitems P A false)) by (apply In_kitems; auto). split; auto. apply (placed_slot _ _ _ _ _ _ PL _ HI). }
    assert (Hinj : forall x y, In x (kitems P A false) -> In y (kitems P A false) -> SL x = SL y -> x = y).
    { intros x y Hx Hy Exy. eapply placed_inj; eauto. apply NoDup_kitems. }
    loop_rule (fun t x => zlen x = zlen (cx M) /\ forall y, In y (kitems P A false) -> znth n0 x (SL y) =
       match y with IR j => if j <? t then nopp (rinv ls1 j) else znth n0 (cx M) (SL y) | _ => znth n0 (cx M) (SL y) end) HI.
    destruct HI as (x2 & -> & Lx & Vx); [auto| | |].
    - split; auto. intros y Hy. destruct y as [| | |j]; auto. apply In_kitems in Hy. replace (j <? 0) with false by lia. auto.
    - intros j s Hj (Ls & Vs). destruct (Hsl j Hj) as (HI & Hr). rewrite (zget_Some 0) by lia. rewrite VR by auto.
      rewrite HR by auto. rewrite zset_Some by lia. eexists; split; [reflexivity|]. rewrite zlen_upd. split; auto.
      intros y Hy. rewrite znth_upd by lia. rewrite (Vs y Hy). destruct (Z.eqb_spec (SL y) (SL (IR j))) as [e|ne].
      + apply Hinj in e; auto. subst y. replace (j <? j + 1) with true by lia. auto.
      + destruct y as [| | |j']; auto. assert (j' <> j) by congruence. replace (j' <? j + 1) with (j' <? j) by lia. auto.
    - exists (set_ls_fac (set_x M x2) (set_ls_KKT (Some (set_x M x2)) ls1)). split; [reflexivity|].
      cbn [ls_fac set_ls_fac set_ls_KKT ls_rho_inv ls_rho_inv_vec]. split.
      2:{ destruct (ls_rho_inv_vec ls); auto. }
      constructor; cbn [ls_n ls_m ls_sigma ls_polishing ls_perm ls_rho_inv_vec ls_KKT ls_fac ls_PtoKKT ls_AtoKKT ls_rhotoKKT set_ls_fac set_ls_KKT set_x cm cn]; try congruence; try assumption; try (rewrite E7; assumption).
      rewrite E7, E8, E9, E10. exists q, SL. split; auto. split; auto. split.
      2:{ repeat (split; [assumption|]). assumption. }
      eapply placed_set_x; [exact PL|lia|]. intros y Hy. rewrite (Vx y Hy).
      pose proof (pl_item _ _ _ _ _ _ PL y Hy) as (_ & _ & _ & Hv).
      destruct y as [| | |j]; auto. apply In_kitems in Hy. replace (j <? cm A) with true by lia. auto.
  Qed.
End Gen.
