(** Two runs of the same code side by side: when the results of the kernels agree although the
    destination arrays held different values before. *)
From Coq Require Import ZArith List Bool Lia.
From Verif Require Import Num Arr ArrFacts Csc CscSpec CscFacts CscFacts2 Scatter CscFacts3 CscFacts5 Vec Types Kkt Linsys Scaling Validate Auxil VecFacts LinsysFacts LinsysSolve Inv.
Import ListNotations.
Open Scope Z_scope.
Local Open Scope opt_scope.

(** When both runs end, their results are related by R. *)
Definition both {A B} (e : option A) (e' : option B) (R : A -> B -> Prop) : Prop := forall a b, e = Some a -> e' = Some b -> R a b.

Lemma both_ret {A B} (a : A) (b : B) (R : A -> B -> Prop) : R a b -> both (Some a) (Some b) R.
Proof. intros H x y [= <-] [= <-]. auto. Qed.
Lemma both_bind {A B C D} (e : option A) (e' : option B) (k : A -> option C) (k' : B -> option D) (R : A -> B -> Prop) (Q : C -> D -> Prop) :
  both e e' R -> (forall a b, R a b -> both (k a) (k' b) Q) -> both (match e with Some a => k a | None => None end) (match e' with Some b => k' b | None => None end) Q.
Proof. intros H HK x y Hx Hy. destruct e as [a|]; [|discriminate]. destruct e' as [b|]; [|discriminate]. eapply HK; eauto. Qed.
Lemma both_same {A} (e e' : option A) : e = e' -> both e e' eq.
Proof. intros <- a b H H'. congruence. Qed.
Lemma both_weaken {A B} (e : option A) (e' : option B) (R Q : A -> B -> Prop) : both e e' R -> (forall a b, R a b -> Q a b) -> both e e' Q.
Proof. intros H HQ a b Ha Hb. auto. Qed.
(** The results also have what is known of each run on its own. *)
Lemma both_safe {A B} (e : option A) (e' : option B) (R : A -> B -> Prop) (P : A -> Prop) (P' : B -> Prop) : both e e' R -> safe e P -> safe e' P' ->
  both e e' (fun a b => R a b /\ P a /\ P' b).
Proof. intros H (a0 & -> & HP) (b0 & -> & HP') a b [= <-] [= <-]. auto. Qed.

Lemma both_for {S S'} (I : Z -> S -> S' -> Prop) lo hi (b : Z -> S -> option S) (b' : Z -> S' -> option S') s s' :
  I lo s s' -> (forall k t t', lo <= k < hi -> I k t t' -> both (b k t) (b' k t') (I (k + 1))) ->
  both (for_ lo hi b s) (for_ lo hi b' s') (I (Z.max lo hi)).
Proof.
  unfold for_. intros H0 HS. remember (Z.to_nat (hi - lo)) as k eqn:Ek. revert lo s s' H0 HS Ek. induction k; intros lo s s' H0 HS Ek; cbn [for_aux].
  - replace (Z.max lo hi) with lo by lia. apply both_ret; auto.
  - eapply both_bind; [apply HS; [lia|exact H0]|]. intros t t' Ht. replace (Z.max lo hi) with (Z.max (lo + 1) hi) by lia.
    apply IHk; auto; [|lia]. intros j u u' Hj. apply HS. lia.
Qed.

(** An array of n cells that is written in full. *)
Lemma both_fill {X} (g : Z -> option X) n (b b' : Z -> list X -> option (list X)) (a a' : list X) : zlen a = n -> zlen a' = n ->
  (forall j t, b j t = (v <- g j ;; zset t j v)) -> (forall j t, b' j t = (v <- g j ;; zset t j v)) ->
  both (for_ 0 n b a) (for_ 0 n b' a') eq.
Proof.
  intros La La' Hb Hb'. pose proof (zlen_nonneg a) as Hn.
  eapply both_weaken; [apply (both_for (fun k (t t' : list X) => zlen t = n /\ zlen t' = n /\ forall i, 0 <= i < k -> zget t i = zget t' i))|].
  - repeat split; auto. intros; lia.
  - intros k t t' Hk (L1 & L2 & HV). rewrite Hb, Hb'. eapply both_bind; [apply both_same; reflexivity|]. intros v ? <-.
    intros u u' Hu Hu'. pose proof (zset_len _ _ _ _ Hu). pose proof (zset_len _ _ _ _ Hu'). rewrite zset_Some in Hu, Hu' by lia. injection Hu as <-. injection Hu' as <-.
    split; [lia|]. split; [lia|]. intros i Hi. rewrite !zget_upd by lia. destruct (Z.eqb_spec i k); auto. apply HV. lia.
  - intros t t' (L1 & L2 & HV). replace (Z.max 0 n) with n in HV by lia. clear - L1 L2 HV.
    destruct t as [|d t]; [destruct t' as [|d' t']; auto; unfold zlen in *; cbn [length] in *; lia|].
    apply (list_ext_znth d); [lia|]. intros i Hi. unfold znth. rewrite HV by lia. auto.
Qed.

Section Ker.
  Context {K : NumOps}.

  Lemma both_v1 {X X' A C} (x : list X) (x' : list X') (f : A -> C) a a' : a' = a -> both (v1 x f a) (v1 x' f a') eq.
  Proof. intros -> r r'. unfold v1. destruct (_ =? _), (_ =? _); congruence. Qed.
  Lemma both_v2 {X X' A B C} (x : list X) (x' : list X') (f : A -> B -> C) a a' b b' : a' = a -> b' = b -> both (v2 x f a b) (v2 x' f a' b') eq.
  Proof. intros -> -> r r'. unfold v2. destruct ((zlen x =? _) && _), ((zlen x' =? _) && _); congruence. Qed.
  Lemma both_v3 {X X' A B C D} (x : list X) (x' : list X') (f : A -> B -> C -> D) a a' b b' c c' : a' = a -> b' = b -> c' = c -> both (v3 x f a b c) (v3 x' f a' b' c') eq.
  Proof. intros -> -> -> r r'. unfold v3. destruct ((zlen x =? _) && _ && _), ((zlen x' =? _) && _ && _); congruence. Qed.
  Lemma both_add_scaled al (x x' : list K) sa sa' a a' sb sb' b b' : sa' = sa -> a' = a -> sb' = sb -> b' = b -> both (vf_add_scaled al x sa a sb b) (vf_add_scaled al x' sa' a' sb' b') eq.
  Proof. intros -> -> -> ->. unfold vf_add_scaled. destruct (al && _); apply both_v2; auto. Qed.
  Lemma both_add_scaled3 al (x x' : list K) sa sa' a a' sb sb' b b' sc sc' c c' : sa' = sa -> a' = a -> sb' = sb -> b' = b -> sc' = sc -> c' = c ->
    both (vf_add_scaled3 al x sa a sb b sc c) (vf_add_scaled3 al x' sa' a' sb' b' sc' c') eq.
  Proof. intros -> -> -> -> -> ->. unfold vf_add_scaled3. destruct (al && _); apply both_v3; auto. Qed.

  (** A vector whose cells are all overwritten through a view. *)
  Lemma both_to_raw (o o' a a' : list K) : a' = a -> zlen o = zlen a -> zlen o' = zlen a -> both (vf_to_raw o a) (vf_to_raw o' a') eq.
  Proof.
    intros -> H1 H2. unfold vf_to_raw, view_write. intros r r'. rewrite H1, H2. destruct (_ && _); [|discriminate]. intros [= <-] [= <-]. cbn [firstn Z.to_nat app].
    rewrite !skipn_all2 by (unfold zlen in *; lia). reflexivity.
  Qed.
  Lemma view_inv (a : list K) off len v r : view_write a off len v = Some r -> (0 <= off /\ 0 <= len /\ off + len <= zlen a /\ zlen v = len) /\
    r = firstn (Z.to_nat off) a ++ v ++ skipn (Z.to_nat (off + len)) a.
  Proof. unfold view_write. destruct (_ && _) eqn:E1; [|discriminate]. intros [= <-]. split; auto. lia. Qed.
  (** The two halves of the vector xz_tilde written one after the other. *)
  Lemma both_halves (a a' v w : list K) n m : zlen a = n + m -> zlen a' = n + m -> forall t t' u u',
    view_write a 0 n v = Some t -> view_write a' 0 n v = Some t' -> view_write t n m w = Some u -> view_write t' n m w = Some u' -> u = u'.
  Proof.
    intros La La' t t' u u' H1 H2 H3 H4. apply view_inv in H1 as (P1 & ->). apply view_inv in H2 as (P2 & ->). apply view_inv in H3 as (P3 & ->). apply view_inv in H4 as (P4 & ->).
    cbn [firstn Z.to_nat app]. assert (Lv : zlen v = n) by lia. assert (0 <= n /\ 0 <= m) by lia.
    f_equal.
    - rewrite !firstn_app. replace (Z.to_nat n - length v)%nat with 0%nat by (unfold zlen in *; lia). rewrite !firstn_O. reflexivity.
    - f_equal. rewrite !skipn_all2; auto; rewrite app_length, skipn_length; unfold zlen in *; lia.
  Qed.

  Hypothesis NZ : @neqb K n0 n0 = true.

  Lemma beta_zero (y : list K) n : zlen y = n -> beta_part y n0 n = Some (zrep n n0).
  Proof.
    intros L. pose proof (zlen_nonneg y). unfold beta_part. rewrite NZ. unfold vec_set_scalar. destruct (for_fill n0 (fun _ => n0) n y) as (y' & Ey & L' & V'); [lia|].
    rewrite Ey. f_equal. apply (list_ext_znth n0); [rewrite zlen_zrep; lia|]. intros i Hi. rewrite V', znth_zrep by lia. replace ((0 <=? i) && (i <? n)) with true by lia. auto.
  Qed.
  Lemma both_Axpy (A A' : csc K) x x' y y' a : A' = A -> x' = x -> zlen y = cm A -> zlen y' = cm A -> both (csc_Axpy A x y a n0) (csc_Axpy A' x' y' a n0) eq.
  Proof. intros -> -> H H'. unfold csc_Axpy. rewrite !beta_zero by auto. apply both_same. auto. Qed.
  Lemma both_Atxpy (A A' : csc K) x x' y y' a : A' = A -> x' = x -> zlen y = cn A -> zlen y' = cn A -> both (csc_Atxpy A x y a n0) (csc_Atxpy A' x' y' a n0) eq.
  Proof. intros -> -> H H'. unfold csc_Atxpy. rewrite !beta_zero by auto. apply both_same. auto. Qed.
  Lemma both_symv (A A' : csc K) x x' y y' a : A' = A -> x' = x -> zlen y = cm A -> zlen y' = cm A -> both (csc_Axpy_sym_triu A x y a n0) (csc_Axpy_sym_triu A' x' y' a n0) eq.
  Proof. intros -> -> H H'. unfold csc_Axpy_sym_triu. rewrite !beta_zero by auto. apply both_same. auto. Qed.
End Ker.

(** Two environments with the same ordering, factorisation and triangular solves; clocks and interrupts
    may differ. *)
Record env_sim {K : NumOps} (E E' : Env K) : Prop := {
  es_amd : forall n p i, env_amd E' n p i = env_amd E n p i;
  es_fac : forall M, env_fac E' M = env_fac E M;
  es_solve : forall M b, env_ldlsolve E' M b = env_ldlsolve E M b;
  es_jz : env_jz E' = env_jz E; es_jx : env_jx E' = env_jx E }.

(** The same linear system solver; the scalar inverse penalty is not used when there is a vector of them. *)
Record lsim {K : NumOps} (a b : linsys K) : Prop := {
  lm_n : ls_n b = ls_n a; lm_m : ls_m b = ls_m a; lm_sigma : ls_sigma b = ls_sigma a; lm_rv : ls_rho_inv_vec b = ls_rho_inv_vec a;
  lm_ri : ls_rho_inv_vec a = None -> ls_rho_inv b = ls_rho_inv a;
  lm_pol : ls_polishing b = ls_polishing a; lm_perm : ls_perm b = ls_perm a; lm_K : ls_KKT b = ls_KKT a;
  lm_P : ls_PtoKKT b = ls_PtoKKT a; lm_A : ls_AtoKKT b = ls_AtoKKT a; lm_R : ls_rhotoKKT b = ls_rhotoKKT a; lm_fac : ls_fac b = ls_fac a }.

Lemma lsim_refl {K : NumOps} (a : linsys K) : lsim a a.
Proof. constructor; auto. Qed.

Section Sys.
  Context {K : NumOps}.
  Variables E E' : Env K.
  Hypothesis ES : env_sim E E'.
  Hypothesis EO : env_ok E.
  Hypothesis EO' : env_ok E'.

  Lemma both_LDLSolve ls ls' (x b : list K) : lsim ls ls' -> 0 <= ls_n ls + ls_m ls -> both (LDLSolve E ls x b) (LDLSolve E' ls' x b) eq.
  Proof.
    intros LS H0. unfold LDLSolve. rewrite (lm_n _ _ LS), (lm_m _ _ LS), (lm_perm _ _ LS), (lm_fac _ _ LS).
    eapply both_bind.
    - apply (both_fill (fun j => q <- zget (ls_perm ls) j ;; zget b q)); [rewrite zlen_zrep; lia|rewrite zlen_zrep; lia| |];
        intros j t; destruct (zget (ls_perm ls) j); auto.
    - intros bp ? <-. apply both_same. rewrite (es_solve _ _ ES). reflexivity.
  Qed.

  Lemma both_solve_linsys ls ls' (P A : csc K) sg r r' (b : list K) : lsim ls ls' -> wf P -> wf A -> ls_ok ls P A sg r -> ls_ok ls' P A sg r' -> zlen b = cn P + cm A ->
    both (solve_linsys E ls b) (solve_linsys E' ls' b) eq.
  Proof.
    intros LS WP WA LO LO' Lb c c' Hc Hc'. pose proof (wf_n _ WP) as Hn. pose proof (wf_m _ WA) as Hm.
    destruct (solve_linsys_spec E EO ls P A sg r b WP WA LO) as (bp & b1 & L1 & V1 & E1 & L2 & sol & L3 & V3 & X1 & X2); [lia|].
    destruct (solve_linsys_spec E' EO' ls' P A sg r' b WP WA LO') as (bp' & b1' & L1' & V1' & E1' & L2' & sol' & L3' & V3' & X1' & X2'); [lia|].
    rewrite E1 in Hc. injection Hc as <-. rewrite E1' in Hc'. injection Hc' as <-.
    assert (EB : bp' = bp). { apply (list_ext_znth n0); [lia|]. intros j Hj. rewrite V1, V1', (lm_perm _ _ LS) by lia. auto. } subst bp'.
    assert (ESol : forall k, 0 <= k < cm A + cn P -> znth n0 sol' k = znth n0 sol k).
    { intros k Hk. destruct (perm_inv (ls_perm ls) (cm A + cn P)) as (q & _ & _ & Q & _); [lia|apply LO|]. destruct (Q k Hk) as (Q1 & Q2).
      rewrite <- Q2. rewrite V3 by auto. rewrite <- (lm_perm _ _ LS). rewrite V3' by auto. rewrite (es_solve _ _ ES), (lm_fac _ _ LS). auto. }
    apply (list_ext_znth n0); [lia|]. intros i Hi. destruct (Z.lt_ge_cases i (cn P)) as [Hl|Hg].
    - rewrite X1, X1' by lia. symmetry. apply ESol. lia.
    - replace i with (i - cn P + cn P) by lia. rewrite X2, X2' by lia. rewrite ESol by lia. f_equal. f_equal. unfold rinv.
      rewrite (lm_rv _ _ LS). destruct (ls_rho_inv_vec ls) eqn:Ev; auto. symmetry. apply (lm_ri _ _ LS). auto.
  Qed.

  (** The update of the penalties. *)
  Lemma both_update_rho_vec ls ls' (rv : option (list K)) rho : lsim ls ls' ->
    both (update_linsys_rho_vec E ls rv rho) (update_linsys_rho_vec E' ls' rv rho) (fun a b => fst b = fst a /\ lsim (snd a) (snd b)).
  Proof.
    intros LS. unfold update_linsys_rho_vec. rewrite (lm_m _ _ LS), (lm_rv _ _ LS).
    eapply both_bind with (R := lsim).
    - destruct (ls_rho_inv_vec ls) as [x|] eqn:Ev.
      + destruct rv as [rv|]; [|intros ? ? [=]]. eapply both_bind; [apply both_same; reflexivity|]. intros y ? <-. apply both_ret.
        destruct ls, ls', LS; cbn in *; subst; constructor; cbn; auto. discriminate.
      + apply both_ret. destruct ls, ls', LS; cbn in *; subst; constructor; cbn; auto.
    - clear LS. intros a b LS. rewrite (lm_K _ _ LS). eapply both_bind; [apply both_same; reflexivity|]. intros M ? <-.
      eapply both_bind with (R := eq).
      + apply both_same. rewrite (lm_rv _ _ LS), (lm_R _ _ LS). destruct (ls_rho_inv_vec a) eqn:Ev; [|rewrite (lm_ri _ _ LS) by auto; auto].
        unfold update_KKT_param2. apply for_ext. intros; auto.
      + intros x ? <-. apply both_ret. cbn [fst snd]. split; [rewrite (es_fac _ _ ES); auto|].
        destruct a, b, LS; cbn in *; subst; constructor; cbn; auto.
  Qed.
End Sys.
