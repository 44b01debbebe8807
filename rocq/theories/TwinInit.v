(** osqp_setup on two problems with the same sparsity pattern, side by side: the ordering, the maps and the pattern of the KKT matrix are the same whatever the values. *)
From Coq Require Import ZArith List Bool Lia String.
From Verif Require Import Num Arr ArrFacts Csc CscSpec CscFacts CscFacts2 Scatter Vec Types Kkt KktFacts Linsys Scaling Validate Auxil Polish Api
  VecFacts LinsysFacts LinsysSolve Inv InvStep InvApi InvScale InvPolish InvSolve InvSetup History RecSimp Frame FrameSolve FrameUpd DataFacts TwinKer LinFrame SolLen.
Import ListNotations.
Open Scope Z_scope.
Local Open Scope opt_scope.

Section Init.
  Context {K : NumOps}.
  Variables E E' : Env K.
  Hypothesis ES : env_sim E E'.

  (** Sizes, column pointers and row indices. *)
  Definition qp (M : csc K) := (cm M, cn M, cp M, ci M).
  Lemma qp_eq (M M' : csc K) : qp M' = qp M -> cm M' = cm M /\ cn M' = cn M /\ cp M' = cp M /\ ci M' = ci M.
  Proof. intros [= H1 H2 H3 H4]. auto. Qed.

  Ltac bs := eapply both_bind; [apply both_same; reflexivity|]; let v := fresh "v" in intros v ? <-.
  Lemma both_zl {X} (a a' : list X) i v v' : zlen a' = zlen a -> both (zset a i v) (zset a' i v') (fun b b' => zlen b' = zlen b).
  Proof. intros HL b b' Hb Hb'. apply zset_len in Hb, Hb'. congruence. Qed.
  Lemma both_get {X} (a a' : list X) i : both (zget a i) (zget a' i) (fun _ _ => True).
  Proof. intros x y _ _. auto. Qed.
  Lemma for2 {S S'} (I : S -> S' -> Prop) lo hi (b : Z -> S -> option S) (b' : Z -> S' -> option S') s s' :
    I s s' -> (forall k t t', I t t' -> both (b k t) (b' k t') I) -> both (for_ lo hi b s) (for_ lo hi b' s') I.
  Proof. intros H HS. eapply both_weaken; [apply (both_for (fun _ => I)); auto|]. auto. Qed.

  (** Matrices under construction: same pointers, same row indices, values in arrays of the same length. *)
  Definition k2 (s s' : @kst K) : Prop := fst s' = fst s /\ zlen (snd s') = zlen (snd s).
  Definition km (r r' : @kst K * option (list Z)) : Prop := k2 (fst r) (fst r') /\ snd r' = snd r.

  Lemma block2 (s s' : @kst K) (M M' : csc K) mp a b t : k2 s s' -> qp M' = qp M -> both (kkt_fill_block s M mp a b t) (kkt_fill_block s' M' mp a b t) km.
  Proof.
    intros H HM. apply qp_eq in HM as (_ & M2 & M3 & M4). unfold kkt_fill_block, for_cols. rewrite M2, M3, M4. apply for2; [split; auto|]. intros j r r' Hr. bs. bs. apply for2; [exact Hr|]. clear r r' Hr.
    intros k [[[p i] x] m1] [[[p' i'] x'] m1'] ((H1 & H2) & H3). cbn [fst snd] in *. injection H1 as -> ->. subst m1'.
    bs. cbv zeta. bs. bs. bs. eapply both_bind; [apply both_get|]. intros w w' _. eapply both_bind; [apply both_zl; exact H2|]. intros y y' Hy. bs. apply both_ret. split; [split; auto|auto].
  Qed.
  Lemma diag2 (s s' : @kst K) mp a b : k2 s s' -> both (kkt_fill_diag_zeros s mp a b) (kkt_fill_diag_zeros s' mp a b) km.
  Proof.
    intros H. unfold kkt_fill_diag_zeros. apply for2; [split; auto|].
    intros k [[[p i] x] m1] [[[p' i'] x'] m1'] ((H1 & H2) & H3). cbn [fst snd] in *. injection H1 as -> ->. subst m1'. cbv zeta.
    bs. bs. eapply both_bind; [apply both_zl; exact H2|]. intros y y' Hy. bs. bs. apply both_ret. split; [split; auto|auto].
  Qed.
  Lemma miss_qp (M M' : csc K) j : qp M' = qp M -> missing_diag M' j = missing_diag M j.
  Proof. intros HM. apply qp_eq in HM as (_ & M2 & M3 & M4). unfold missing_diag. rewrite M3, M4. reflexivity. Qed.
  Lemma missing2 (s s' : @kst K) (M M' : csc K) a : k2 s s' -> qp M' = qp M -> both (kkt_fill_missing_diag_zeros s M a) (kkt_fill_missing_diag_zeros s' M' a) k2.
  Proof.
    intros H HM. pose proof (qp_eq _ _ HM) as (_ & M2 & _ & _). unfold kkt_fill_missing_diag_zeros. rewrite M2. apply for2; [auto|].
    intros k [[p i] x] [[p' i'] x'] (H1 & H2). cbn [fst snd] in *. injection H1 as -> ->. rewrite (miss_qp M M' k HM). bs. destruct v; [|apply both_ret; split; auto].
    bs. bs. eapply both_bind; [apply both_zl; exact H2|]. intros y y' Hy. bs. bs. apply both_ret. split; auto.
  Qed.
  Lemma for_ext2 {S} lo hi (f g : Z -> S -> option S) s : (forall i t, f i t = g i t) -> for_ lo hi f s = for_ lo hi g s.
  Proof. intros H. apply for_ext. auto. Qed.
  Lemma miss_count (p : list Z) (M M' : csc K) a : qp M' = qp M -> kkt_colcount_missing_diag p M' a = kkt_colcount_missing_diag p M a.
  Proof. intros HM. pose proof (qp_eq _ _ HM) as (_ & M2 & _ & _). unfold kkt_colcount_missing_diag. rewrite M2. apply for_ext2. intros i t. rewrite (miss_qp M M' i HM). reflexivity. Qed.
  Lemma block_count (p : list Z) (M M' : csc K) a t : qp M' = qp M -> kkt_colcount_block p M' a t = kkt_colcount_block p M a t.
  Proof. intros HM. apply qp_eq in HM as (_ & M2 & M3 & M4). unfold kkt_colcount_block. rewrite M2, M3, M4. reflexivity. Qed.
  Lemma diag_count (M M' : csc K) : qp M' = qp M -> count_diagonal_entries M' = count_diagonal_entries M.
  Proof. intros HM. pose proof (qp_eq _ _ HM) as (_ & M2 & _ & _). unfold count_diagonal_entries. rewrite M2. apply for_ext2. intros i t. rewrite (miss_qp M M' i HM). reflexivity. Qed.

  Lemma form2 jz jx jx' (P P' A A' : csc K) sg sg' rv rv' rs0 rs0' mP mA mR : qp P' = qp P -> qp A' = qp A ->
    both (form_KKT jz jx P A false sg rv rs0 mP mA mR) (form_KKT jz jx' P' A' false sg' rv' rs0' mP mA mR) (fun r r' => pat (fst (fst (fst r'))) = pat (fst (fst (fst r))) /\
      snd r' = snd r /\ snd (fst r') = snd (fst r) /\ snd (fst (fst r')) = snd (fst (fst r))).
  Proof.
    intros HP HA. pose proof (qp_eq _ _ HP) as (P1 & P2 & P3 & P4). pose proof (qp_eq _ _ HA) as (A1 & A2 & A3 & A4). unfold form_KKT. cbv zeta. rewrite (diag_count _ _ HP), P2, P3, A1, A3.
    bs. bs. bs. eapply both_bind with (R := fun r r' => k2 (fst (fst (fst r))) (fst (fst (fst r'))) /\ snd r' = snd r /\ snd (fst r') = snd (fst r) /\ snd (fst (fst r')) = snd (fst (fst r))).
    { unfold kkt_assemble. cbv zeta. rewrite P2, A1. unfold csc_spalloc. cbn [cp ci cx]. bs.
      rewrite (block_count _ _ _ _ _ HP). bs. rewrite (miss_count _ _ _ _ HP). bs. rewrite (block_count _ _ _ _ _ HA). bs. bs. bs.
      eapply both_bind; [apply block2; [|exact HP]; split; [reflexivity|cbn [snd]; rewrite !zlen_zrep; lia]|]. intros [s1 m1] [s1' m1'] (H1 & H2). cbn [fst snd] in *. subst m1'.
      eapply both_bind; [apply missing2; [exact H1|exact HP]|]. intros s2 s2' H3.
      eapply both_bind; [apply block2; [exact H3|exact HA]|]. intros [s3 m3] [s3' m3'] (H4 & H5). cbn [fst snd] in *. subst m3'.
      eapply both_bind; [apply diag2; exact H4|]. intros [[[p4 i4] x4] m4] [[[p4' i4'] x4'] m4'] ((H6 & H7) & H8). cbn [fst snd] in *. subst m4'. injection H6 as -> ->.
      bs. apply both_ret. cbn [fst snd]. repeat split; auto. }
    intros [[[[[p i] x] m1] m2] m3] [[[[[p' i'] x'] m1'] m2'] m3'] ((H1 & H2) & H3 & H4 & H5). cbn [fst snd] in *. subst m1' m2' m3'. injection H1 as -> ->.
    eapply both_bind with (R := fun y y' => zlen y' = zlen y).
    { unfold kkt_shifts_param1. apply for2; [exact H2|]. intros k y y' Hy. bs. eapply both_bind; [apply both_get|]. intros a b _. apply both_zl. exact Hy. }
    intros y y' Hy. eapply both_bind with (R := fun z z' => zlen z' = zlen z).
    { unfold kkt_shifts_param2. apply for2; [exact Hy|]. intros k z z' Hz. bs. eapply both_bind; [apply both_get|]. intros a b _. eapply both_bind with (R := fun _ _ => True); [intros ? ? _ _; auto|]. intros d d' _. apply both_zl. exact Hz. }
    intros z z' Hz. apply both_ret. cbn [fst snd]. unfold pat, csc_spalloc. cbn [cm cn cp ci cx cnzmax cnz]. rewrite Hz. auto.
  Qed.
  Lemma pat_qp (M M' : csc K) : pat M' = pat M -> qp M' = qp M.
  Proof. unfold pat, qp. congruence. Qed.
  Lemma symperm2 jz jx jx' (M M' : csc K) p t : qp M' = qp M -> both (csc_symperm jz jx M p t) (csc_symperm jz jx' M' p t) (fun r r' => pat (fst r') = pat (fst r) /\ snd r' = snd r).
  Proof.
    intros HM. pose proof (qp_eq _ _ HM) as (M1 & M2 & M3 & M4). unfold csc_symperm. cbv zeta. rewrite M2, M3, M4. bs. bs. unfold csc_spalloc. cbn [cp ci cx cm cn cnzmax cnz]. eapply both_bind; [apply both_same; reflexivity|]. intros [[Cp w] q] ? <-.
    eapply both_bind with (R := fun s s' => fst (fst s') = fst (fst s) /\ zlen (snd (fst s')) = zlen (snd (fst s)) /\ snd s' = snd s).
    { apply for2; [cbn [fst snd]; rewrite !zlen_zrep by lia; auto|]. intros j s s' Hs. bs. bs. bs. apply for2; [exact Hs|]. clear s s' Hs. intros k [[[w1 C1] x] m1] [[[w1' C1'] x'] m1'] (H1 & H2 & H3). cbn [fst snd] in *. injection H1 as -> ->. subst m1'.
      bs. destruct (j <? _); [apply both_ret; cbn [fst snd]; auto|]. bs. bs. bs. bs. eapply both_bind; [apply both_get|]. intros a b _. eapply both_bind; [apply both_zl; exact H2|]. intros y y' Hy.
      destruct m1; [bs|]; apply both_ret; cbn [fst snd]; auto. }
    intros [[[w1 C1] x] m1] [[[w1' C1'] x'] m1'] (H1 & H2 & H3). cbn [fst snd] in *. injection H1 as -> ->. subst m1'. apply both_ret. cbn [fst snd]. unfold pat. cbn [cm cn cp ci cx cnzmax cnz]. rewrite H2. auto.
  Qed.

  Lemma init2 (P P' A A' : csc K) rv rv' st st' : qp P' = qp P -> qp A' = qp A ->
    both (init_linsys_solver E P A rv st false) (init_linsys_solver E' P' A' rv' st' false) (fun r r' => forall ls ls', snd r = Some ls -> snd r' = Some ls' -> lf ls' = lf ls).
  Proof.
    intros HP HA. pose proof (qp_eq _ _ HP) as (P1 & P2 & P3 & P4). pose proof (qp_eq _ _ HA) as (A1 & A2 & A3 & A4). unfold init_linsys_solver. cbv zeta. rewrite P2, P3, A1, A3, (es_jz _ _ ES).
    eapply both_bind with (R := fun _ _ => True); [intros ? ? _ _; auto|]. intros v v' _. bs. bs. eapply both_bind; [apply form2; auto|].
    intros [[[M o1] o2] o3] [[[M' o1'] o2'] o3'] (HM & H1 & H2 & H3). cbn [fst snd] in *. subst o1' o2' o3'.
    assert (NN : forall (R : Z * option (linsys K) -> Z * option (linsys K) -> Prop), both None None R) by (intros R a b; discriminate).
    destruct o1 as [mP|]; [|apply NN]. destruct o2 as [mA|]; [|apply NN]. destruct o3 as [mR|]; [|apply NN].
    eapply both_bind with (R := fun r r' => pat (fst (fst r')) = pat (fst (fst r)) /\ snd (fst r') = snd (fst r) /\ snd r' = snd r).
    { unfold permute_KKT. pose proof (qp_eq _ _ (pat_qp _ _ HM)) as (M1 & M2 & M3 & M4). rewrite M2, M3, M4, (es_amd _ _ ES). destruct (env_amd _ _ _ _); [|apply both_ret; auto].
      rewrite (es_jz _ _ ES). bs. bs. eapply both_bind; [apply symperm2; apply pat_qp; exact HM|]. intros [C t] [C' t'] (H1 & H2). cbn [fst snd] in *. subst t'.
      destruct t; [|intros a b; discriminate]. bs. bs. bs. apply both_ret. cbn [fst snd]. auto. }
    intros [[C pm] [[[a b] c]|]] [[C' pm'] o'] (HC & H1 & H2); cbn [fst snd] in *; subst pm' o'; [|apply NN].
    destruct (_ <? 0), (_ <? 0); apply both_ret; cbn [snd]; intros ls ls' H H'; try discriminate. injection H as <-. injection H' as <-. unfold lf. cbn [ls_perm ls_PtoKKT ls_AtoKKT ls_rhotoKKT ls_KKT option_map]. rewrite HC. reflexivity.
  Qed.

  (** ** Scaling keeps the pattern *)
  Definition dq (w : work K) := (qp (d_P (w_data w)), qp (d_A (w_data w))).
  Lemma lmult_qp (M : csc K) d : post (csc_lmult_diag M d) (fun M' => qp M' = qp M).
  Proof. unfold csc_lmult_diag. walk1. apply post_ret. reflexivity. Qed.
  Lemma rmult_qp (M : csc K) d : post (csc_rmult_diag M d) (fun M' => qp M' = qp M).
  Proof. unfold csc_rmult_diag. walk1. apply post_ret. reflexivity. Qed.
  Lemma scale_qp (M : csc K) d : post (csc_scale M d) (fun M' => qp M' = qp M).
  Proof. unfold csc_scale. do 2 walk1. apply post_ret. reflexivity. Qed.
  Lemma scale_pass_dq (w : work K) sc : post (scale_pass w sc) (fun r => dq (fst r) = dq w).
  Proof.
    unfold scale_pass. cbv zeta. apply post_bind. intros [[Dt DtA] Et] _. do 4 (apply post_bind; intros ? _).
    eapply post_bindP; [apply lmult_qp|]. intros P1 H1. eapply post_bindP; [apply rmult_qp|]. intros P2 H2. eapply post_bindP; [apply lmult_qp|]. intros A1 H3. eapply post_bindP; [apply rmult_qp|]. intros A2 H4.
    do 4 (apply post_bind; intros ? _). eapply post_bindP; [apply scale_qp|]. intros P3 H5. apply post_ret. cbn [fst]. unfold dq. rs. congruence.
  Qed.
  Lemma scale_data_dq st (w : work K) : post (scale_data st w) (fun w' => dq w' = dq w).
  Proof.
    unfold scale_data. walk1. cbv zeta. eapply post_bindP with (P := fun r => dq (fst r) = dq w).
    { apply post_for; [reflexivity|]. intros i [w1 s1] H1. cbn [fst snd] in *. eapply post_weaken; [apply scale_pass_dq|]. cbv beta. intros; congruence. }
    intros [w1 s1] H1. cbn [fst] in H1. do 4 (apply post_bind; intros ? _). apply post_ret. unfold dq in *. rs. exact H1.
  Qed.
  Lemma set_rho_vec_dq (s : solver K) : post (set_rho_vec s) (fun r => dq (sv_work (snd r)) = dq (sv_work s)).
  Proof.
    unfold set_rho_vec. walk1. walk1. eapply post_bindP with (P := fun w => dq w = dq (sv_work s)).
    { eapply post_weaken; [apply refresh_post|]. intros w' (a1 & b1 & ->). reflexivity. }
    intros w Hw. apply post_ret. exact Hw.
  Qed.

  (** The matrices the user passes: same sizes, same column pointers, same row indices. *)
  Definition alike (M M' : csc K) : Prop :=
    cm M' = cm M /\ cn M' = cn M /\ (forall j, 0 <= j <= cn M -> colp M' j = colp M j) /\ (forall k, 0 <= k < nnz M -> rowi M' k = rowi M k).
  Lemma alike_refl M : alike M M. Proof. repeat split; auto. Qed.
  Lemma copy_qp jz jx jx' (M M' B B' : csc K) : wf M -> wf M' -> alike M M' -> csc_copy jz jx M = Some B -> csc_copy jz jx' M' = Some B' -> qp B' = qp B.
  Proof.
    intros W W' (A1 & A2 & A3 & A4) HB HB'.
    destruct (csc_copy_spec M jz jx n0 W) as (C & EC & C1 & C2 & C3 & C4 & C5 & C6 & C7 & C8 & C9). destruct (csc_copy_spec M' jz jx' n0 W') as (C' & EC' & C1' & C2' & C3' & C4' & C5' & C6' & C7' & C8' & C9').
    rewrite HB in EC. rewrite HB' in EC'. injection EC as <-. injection EC' as <-. pose proof (wf_n _ W).
    assert (EN : nnz M' = nnz M) by (unfold nnz; rewrite A2; apply A3; lia).
    assert (X1 : cp B' = cp B). { apply (list_ext_znth 0); [congruence|]. intros i Hi. rewrite C3', A2 in Hi. change (colp B' i = colp B i). rewrite C8', C8, A3 by lia. auto. }
    assert (X2 : ci B' = ci B). { apply (list_ext_znth 0); [congruence|]. intros i Hi. rewrite C4', EN in Hi. change (rowi B' i = rowi B i). rewrite (proj1 (C9' i ltac:(lia))), (proj1 (C9 i Hi)), A4 by lia. auto. }
    unfold qp. congruence.
  Qed.

  (** Where init_linsys_solver is called, and what becomes of its result. *)
  Lemma setup_calls g P q A l u m n ust s g' ls :
    osqp_setup E g (Some P) q (Some A) l u m n (Some ust) = Some (0, Some s, g') -> w_linsys (sv_work s) = Some ls ->
    exists P0 A0 P1 A1 rv st fl l0, csc_copy (env_jz E) (env_jx E) P = Some P0 /\ csc_copy (env_jz E) (env_jx E) A = Some A0 /\ qp P1 = qp P0 /\ qp A1 = qp A0 /\
      init_linsys_solver E P1 A1 rv st false = Some (fl, Some l0) /\ lf ls = lf l0.
  Proof.
    intros H. assert (HP : post (osqp_setup E g (Some P) q (Some A) l u m n (Some ust)) (fun r => forall s, snd (fst r) = Some s -> forall ls, w_linsys (sv_work s) = Some ls ->
      exists P0 A0 P1 A1 rv st fl l0, csc_copy (env_jz E) (env_jx E) P = Some P0 /\ csc_copy (env_jz E) (env_jx E) A = Some A0 /\ qp P1 = qp P0 /\ qp A1 = qp A0 /\
      init_linsys_solver E P1 A1 rv st false = Some (fl, Some l0) /\ lf ls = lf l0)).
    2:{ exact (HP _ H s eq_refl ls). }
    clear H s g' ls. unfold osqp_setup. apply post_bind. intros bad _. destruct bad; [apply post_ret; cbn [fst snd]; discriminate|]. destruct (validate_settings _ _); [apply post_ret; cbn [fst snd]; discriminate|].
    apply post_bind. intros P0 EP. apply post_bind. intros q0 _. apply post_bind. intros A0 EA. do 2 (apply post_bind; intros ? _). set (w0 := initial_work _ _ _ _ _ _ _ _ _).
    assert (H0 : lk w0 w0 /\ dq w0 = (qp P0, qp A0)) by (split; [apply lk_refl|reflexivity]). set (HH := fun w : work K => lk w0 w /\ dq w = (qp P0, qp A0)).
    eapply post_bindP with (P := fun s => HH (sv_work s)).
    { destruct (tr _); [|apply post_ret; exact H0]. apply post_bind. intros w Ew. pose proof (scale_data_lk _ _ _ Ew) as Hw. pose proof (scale_data_dq _ _ _ Ew) as Hd. unfold pop_sec. rs. destruct (g_sections _); [apply post_none|]. apply post_ret.
      unfold push_sec in Hw, Hd. rs_in Hw. rs_in Hd. split; [exact Hw|]. rewrite (proj2 H0) in Hd. exact Hd. }
    intros s1 (H1a & H1b). eapply post_bindP with (P := fun s => HH (sv_work s)).
    { destruct (tr _); [|apply post_ret; split; [exact H1a|exact H1b]]. apply post_bind. intros r Er. pose proof (set_rho_vec_lk _ _ Er) as X1. pose proof (set_rho_vec_dq _ _ Er) as X2. apply post_ret. split; [eapply lk_trans; [exact H1a|exact X1]|congruence]. }
    intros s2 (H2a & H2b). apply post_bind. intros [flag [ls|]] EI.
    - eapply post_bindP; [apply cold_lk|]. intros w Hw. rs_in Hw. apply post_bind. intros i _. unfold toc, pop_sec.
      match goal with |- post (match ?e with Some _ => _ | None => None end) _ => destruct e as [s3|] eqn:E3; [|apply post_none] end.
      apply post_ret. cbn [fst snd]. intros s [= <-]. rs. assert (E4 : lk w (sv_work s3)) by (revert E3; destruct (tr (st_allocate_solution ust)); rs; (match goal with |- context [match ?g with [] => None | _ => _ end] => destruct g end; [discriminate|]); intros [= <-]; exact (lk_refl w)).
      intros l2 El2. unfold lk in Hw, E4. rewrite El2, Hw in E4. rs_in E4. cbn [option_map] in E4.
      exists P0, A0, (d_P (w_data (sv_work s2))), (d_A (w_data (sv_work s2))), (w_rho_vec (sv_work s2)), (sv_settings s2), flag, ls. unfold dq in H2b. injection H2b as X1 X2 X3 X4 X5 X6 X7 X8.
      split; [auto|]. split; [auto|]. split; [unfold qp; congruence|]. split; [unfold qp; congruence|]. split; [exact EI|]. exact (f_equal (fun o => match o with Some x => x | None => lf ls end) E4).
    - apply post_bind. intros i _. apply post_ret. cbn [fst snd]. intros s [= <-]. rs. intros l2 El2. exfalso. unfold lk in H2a. rewrite El2 in H2a. discriminate H2a.
  Qed.

  (** The stored solution after osqp_setup. *)
  Lemma setup_sol g P q A l u m n ust fl s g' o : osqp_setup E g P q A l u m n (Some ust) = Some (fl, Some s, g') -> sv_solution s = Some o -> o = mksolution (zrep n n0) (zrep m n0) (zrep m n0) (zrep n n0).
  Proof.
    intros H. assert (HP : post (osqp_setup E g P q A l u m n (Some ust)) (fun r => forall s, snd (fst r) = Some s -> forall o, sv_solution s = Some o -> o = mksolution (zrep n n0) (zrep m n0) (zrep m n0) (zrep n n0))).
    2:{ exact (HP _ H s eq_refl o). }
    clear H s fl g' o. unfold osqp_setup. apply post_bind. intros bad _. destruct bad; [apply post_ret; cbn [fst snd]; discriminate|]. destruct (validate_settings _ _); [apply post_ret; cbn [fst snd]; discriminate|].
    do 7 (apply post_bind; intros ? _). set (w0 := initial_work _ _ _ _ _ _ _ _ _).
    eapply post_bindP with (P := fun s => sv_solution s = None).
    { destruct (tr _); [|apply post_ret; reflexivity]. apply post_bind. intros w _. unfold pop_sec. rs. destruct (g_sections _); [apply post_none|]. apply post_ret. reflexivity. }
    intros s1 H1'. eapply post_bindP with (P := fun s => sv_solution s = None).
    { destruct (tr _); [|apply post_ret; exact H1']. eapply post_bindP with (P := fun r => sv_solution (snd r) = None). { unfold set_rho_vec. do 3 walk1. apply post_ret. exact H1'. } intros r Hr. apply post_ret. exact Hr. }
    intros s2 H2'. apply post_bind. intros [flag [ls|]] _.
    - apply post_bind. intros w _. apply post_bind. intros i _. unfold toc, pop_sec.
      match goal with |- post (match ?e with Some _ => _ | None => None end) _ => destruct e as [s3|] eqn:E3; [|apply post_none] end.
      apply post_ret. cbn [fst snd]. intros s [= <-] o. rs. intros Ho.
      revert E3; destruct (tr (st_allocate_solution ust)); rs; (match goal with |- context [match ?g with [] => None | _ => _ end] => destruct g end; [discriminate|]); intros [= <-]; rs_in Ho; [congruence|]. rewrite H2' in Ho. discriminate.
    - apply post_bind. intros i _. apply post_ret. cbn [fst snd]. intros s [= <-] o. rs. rewrite H2'. discriminate.
  Qed.
End Init.
