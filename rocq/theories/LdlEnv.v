(** An exact LDL' factorisation as the outside world; the example environment over the reals is one. *)
From Coq Require Import ZArith Reals List Bool Lia Lra.
From Verif Require Import Num Arr ArrFacts RSum Csc CscSpec CscFacts Vec VecFacts Types Kkt Linsys LinsysFacts LinsysSolve KktSpec KktDense ExEnv RealVec Ldl.
Import ListNotations.
Open Scope Z_scope.

(** What QDLDL_factor and QDLDL_solve do in exact arithmetic: they fail on a zero pivot, otherwise count the
    positive pivots and solve the system. *)
Record exact_ldl (E : Env Rops) : Prop := {
  el_fac : forall M : csc Rops, wf M -> triu M -> regular (Z.to_nat (cn M)) 0 (sdns M) -> env_fac E M = npos (Z.to_nat (cn M)) 0 (sdns M);
  el_zero : forall M : csc Rops, wf M -> triu M -> ~ regular (Z.to_nat (cn M)) 0 (sdns M) -> env_fac E M < 0;
  el_solve : forall M : csc Rops, wf M -> triu M -> regular (Z.to_nat (cn M)) 0 (sdns M) -> solves E M }.

Definition mat (a : Z) (n : nat) (f : Z -> Z -> R) : list (list R) := map (fun i => map (f i) (zseq a (a + Z.of_nat n))) (zseq a (a + Z.of_nat n)).

Lemma combine_map {A B C} (u : A -> B) (v : A -> C) l : combine (map u l) (map v l) = map (fun i => (u i, v i)) l.
Proof. induction l; cbn; congruence. Qed.
Lemma zipl_map {I A B C} (g : A -> B -> C) (u : I -> A) (v : I -> B) l : zipl g (map u l) (map v l) = map (fun i => g (u i) (v i)) l.
Proof. unfold zipl. rewrite combine_map, map_map. reflexivity. Qed.

Lemma mat_S a n f : mat a (S n) f = (f a a :: map (f a) (zseq (a + 1) (a + 1 + Z.of_nat n))) ::
  map (fun i => f i a :: map (f i) (zseq (a + 1) (a + 1 + Z.of_nat n))) (zseq (a + 1) (a + 1 + Z.of_nat n)).
Proof. unfold mat. replace (a + Z.of_nat (S n)) with (a + 1 + Z.of_nat n) by lia. rewrite (zseq_cons a) by lia. reflexivity. Qed.
Lemma schur_mat a n f : @schur Rops (f a a) (map (f a) (zseq (a + 1) (a + 1 + Z.of_nat n)))
  (map (fun i => f i a :: map (f i) (zseq (a + 1) (a + 1 + Z.of_nat n))) (zseq (a + 1) (a + 1 + Z.of_nat n))) = mat (a + 1) n (elim a f).
Proof. unfold schur, mat. rewrite zipl_map. apply map_ext. intros i. cbn [tl]. rewrite zipl_map. reflexivity. Qed.

Lemma regular_dec n : forall a f, {regular n a f} + {~ regular n a f}.
Proof.
  induction n as [|n IH]; intros a f; [left; exact I|]. cbn [regular]. destruct (Req_EM_T (f a a) 0) as [E|E]; [right; tauto|].
  destruct (IH (a + 1) (elim a f)); [left; auto|right; tauto].
Qed.

Lemma pivots_mat n : forall a f pos, pos >= 0 ->
  (regular n a f -> @pivots Rops n (mat a n f) pos = pos + npos n a f) /\ (~ regular n a f -> @pivots Rops n (mat a n f) pos = -1).
Proof.
  induction n as [|n IH]; intros a f pos Hp; [split; [intros _; cbn [npos pivots]; lia|intros H; exfalso; apply H; exact I]|].
  rewrite mat_S. cbn [pivots]. rewrite n0_R. cbn [neqb nltb Rops]. rewrite schur_mat. cbn [regular npos]. unfold Reqb, Rltb.
  destruct (Req_EM_T (f a a) 0) as [E|E]; [split; [intros [H _]; contradiction|auto]|].
  destruct (Rlt_dec 0 (f a a)).
  - destruct (IH (a + 1) (elim a f) (pos + 1) ltac:(lia)) as [H1 H2]. split; [intros [_ H]; rewrite H1 by auto; lia|intros H; apply H2; tauto].
  - destruct (IH (a + 1) (elim a f) pos ltac:(lia)) as [H1 H2]. split; [intros [_ H]; rewrite H1 by auto; lia|intros H; apply H2; tauto].
Qed.

Lemma fold_left_lsum {X} (g : X -> R) l : forall acc, fold_left (fun a p => (a + g p)%R) l acc = (acc + lsum g l)%R.
Proof. induction l as [|x l IH]; intros acc; cbn [fold_left lsum]; [ring|]. rewrite IH. ring. Qed.

Lemma ldlt_mat n : forall a f B, (forall i j, f i j = f j i) -> regular n a f ->
  exists X : Z -> R, @ldlt Rops n (mat a n f) (map B (zseq a (a + Z.of_nat n))) = map X (zseq a (a + Z.of_nat n)) /\
    forall i, a <= i < a + Z.of_nat n -> zsum a (a + Z.of_nat n) (fun j => (f i j * X j)%R) = B i.
Proof.
  induction n as [|n IH]; intros a f B HS HR.
  { exists (fun _ => 0%R). replace (a + Z.of_nat 0) with a by lia. rewrite zseq_nil by lia. split; [reflexivity|]. intros; lia. }
  destruct HR as [HN HR]. rewrite mat_S. replace (a + Z.of_nat (S n)) with (a + 1 + Z.of_nat n) by lia. set (b := a + 1 + Z.of_nat n) in *.
  rewrite (zseq_cons a b) by lia. cbn [map ldlt]. unfold b. rewrite schur_mat. fold b. rewrite zipl_map.
  destruct (IH (a + 1) (elim a f) (fun i => (B i - f a i / f a a * B a)%R) (elim_sym a f HS) HR) as (X & EX & HX). fold b in EX, HX.
  cbn [nsub ndiv nmul nadd Rops]. rewrite EX. rewrite n0_R. rewrite combine_map.
  set (s := fold_left _ _ _). assert (Es : s = zsum (a + 1) b (fun j => f a j / f a a * X j)%R).
  { subst s. rewrite (fold_left_lsum (fun p : R * R => (fst p / f a a * snd p)%R)). rewrite lsum_map. cbn [fst snd]. rewrite Rplus_0_l. reflexivity. }
  exists (fun j => if j =? a then (B a / f a a - s)%R else X j). split.
  { cbn [map]. rewrite Z.eqb_refl. f_equal. apply map_ext_in. intros j Hj. apply In_zseq in Hj. replace (j =? a) with false by lia. auto. }
  intros i Hi. rewrite zsum_cons by lia. rewrite Z.eqb_refl.
  rewrite (zsum_ext (a + 1) b _ (fun j => f i j * X j)%R) by (intros j Hj; replace (j =? a) with false by lia; auto).
  assert (Es' : s = (zsum (a + 1) b (fun j => f a j * X j) / f a a)%R).
  { rewrite Es. unfold Rdiv. rewrite <- zsum_scal_r. apply zsum_ext. intros. ring. }
  set (g := zsum (a + 1) b (fun j => f a j * X j)%R) in *.
  destruct (Z.eq_dec i a) as [->|Hne]; [fold g; rewrite Es'; field; auto|].
  specialize (HX i ltac:(lia)). rewrite (zsum_ext (a + 1) b _ (fun j => f i j * X j - f a i / f a a * (f a j * X j))%R) in HX by (intros; unfold elim; ring).
  rewrite zsum_minus, zsum_scal in HX. fold g in HX. rewrite Es', (HS i a).
  assert (EZ : zsum (a + 1) b (fun j => f i j * X j)%R = (B i - f a i / f a a * B a + f a i / f a a * g)%R) by lra. rewrite EZ. field. auto.
Qed.

Lemma sym_entry_R (M : csc Rops) i j : @sym_entry Rops M i j = sdns M i j.
Proof.
  unfold sym_entry, sdns, dns, zsum. rewrite n0_R.
  assert (HF : forall t l acc, fold_left (fun acc k => if rowi M k =? t then (acc + valx M k)%R else acc) l acc = (acc + lsum (fun k => if rowi M k =? t then valx M k else 0%R) l)%R).
  { intros t l. induction l as [|x l IH]; intros acc; cbn [fold_left lsum]; [ring|]. rewrite IH. destruct (rowi M x =? t); ring. }
  specialize (HF (Z.min i j) (zseq (colp M (Z.max i j)) (colp M (Z.max i j + 1))) 0%R). rewrite Rplus_0_l in HF. unfold valx in HF.
  change (@nadd Rops) with Rplus. etransitivity; [exact HF|]. destruct (Z.leb_spec i j).
  - rewrite Z.min_l, Z.max_r by lia. reflexivity.
  - rewrite Z.min_r, Z.max_l by lia. reflexivity.
Qed.

Lemma dense_mat (M : csc Rops) : 0 <= cn M -> @dense Rops M = mat 0 (Z.to_nat (cn M)) (sdns M).
Proof.
  intros H. unfold dense, mat. replace (0 + Z.of_nat (Z.to_nat (cn M))) with (cn M) by lia.
  apply map_ext. intros i. apply map_ext. intros j. apply sym_entry_R.
Qed.

Lemma zlen_map_zseq (X : Z -> R) n : 0 <= n -> zlen (map X (zseq 0 n)) = n.
Proof. intros. unfold zlen. rewrite map_length, length_zseq. lia. Qed.
Lemma list_as_map (b : list R) : b = map (rnth b) (zseq 0 (rlen b)).
Proof.
  pose proof (zlen_nonneg b) as Hz. apply rlist_ext; [rewrite zlen_map_zseq by auto; auto|]. intros i Hi. unfold rnth at 2.
  rewrite (znth_map 0%R 0) by (rewrite zlen_zseq; lia). rewrite znth_zseq by lia. reflexivity.
Qed.

Theorem exEnv_exact clock intr : exact_ldl (@exEnv Rops clock intr).
Proof.
  constructor; intros M W T HR; pose proof (wf_n _ W) as Hn; cbn [env_fac env_ldlsolve exEnv].
  - rewrite dense_mat by auto. destruct (pivots_mat (Z.to_nat (cn M)) 0 (sdns M) 0 ltac:(lia)) as [H1 _]. rewrite H1 by auto. lia.
  - rewrite dense_mat by auto. destruct (pivots_mat (Z.to_nat (cn M)) 0 (sdns M) 0 ltac:(lia)) as [_ H2]. rewrite H2 by auto. lia.
  - intros b Lb i Hi. cbn [env_ldlsolve exEnv]. unfold ex_solve.
    assert (EL : length b = Z.to_nat (cn M)) by (unfold zlen in Lb; lia). change (car Rops) with R in *. rewrite EL, dense_mat by auto.
    destruct (ldlt_mat (Z.to_nat (cn M)) 0 (sdns M) (rnth b)) as (X & EX & HX); [intros; apply sdns_sym|auto|].
    replace (0 + Z.of_nat (Z.to_nat (cn M))) with (cn M) in EX, HX by lia.
    assert (Eb : map (rnth b) (zseq 0 (cn M)) = b) by (rewrite <- Lb; symmetry; apply list_as_map). change (car Rops) with R in *. rewrite Eb in EX. rewrite EX.
    replace (Nat.eqb (length (map X (zseq 0 (cn M)))) (Z.to_nat (cn M))) with true by (symmetry; apply Nat.eqb_eq; rewrite map_length, length_zseq; lia).
    rewrite <- HX by auto. apply zsum_ext. intros j Hj. f_equal. unfold rnth. rewrite (znth_map 0%R 0) by (rewrite zlen_zseq; lia). rewrite znth_zseq by lia. reflexivity.
Qed.

(** The factorisation of the KKT matrix held by the solver. *)
Section Fac.
  Variable E : Env Rops.
  Hypothesis EX : exact_ldl E.
  Variables (ls : linsys Rops) (P A : csc Rops) (sigma : R) (r : Z -> R).
  Hypothesis (WP : wf P) (TP : triu P) (WA : wf A) (HnA : cn A = cn P) (LO : ls_ok ls P A sigma r) (Hr : forall j, 0 <= j < cm A -> (r j < 0)%R).
  Let N := cm A + cn P.
  Let g a b := kktS (cn P) (sdns P) (dns A) sigma (fun k => - r k)%R (znth 0 (ls_perm ls) a) (znth 0 (ls_perm ls) b).

  Lemma regular_ext n : forall a f h, (forall i j, a <= i < a + Z.of_nat n -> a <= j < a + Z.of_nat n -> f i j = h i j) -> (regular n a f <-> regular n a h) /\ npos n a f = npos n a h.
  Proof.
    induction n as [|n IH]; intros a f h H; [split; [tauto|reflexivity]|]. cbn [regular npos]. rewrite (H a a) by lia.
    destruct (IH (a + 1) (elim a f) (elim a h)) as [H1 H2]; [intros i j Hi Hj; unfold elim; rewrite !H by lia; auto|]. rewrite H1, H2. tauto.
  Qed.
  Lemma fac_wf : wf (ls_fac ls).
  Proof. destruct (lo_placed _ _ _ _ _ LO) as (q & SL & _ & _ & PL & _). apply PL. Qed.
  Lemma fac_g : (regular (Z.to_nat (cn (ls_fac ls))) 0 (sdns (ls_fac ls)) <-> regular (Z.to_nat N) 0 g) /\
    npos (Z.to_nat (cn (ls_fac ls))) 0 (sdns (ls_fac ls)) = npos (Z.to_nat N) 0 g.
  Proof.
    pose proof (wf_n _ WP). pose proof (wf_m _ WA). rewrite (lo_cn _ _ _ _ _ LO). fold N. apply regular_ext. replace (0 + Z.of_nat (Z.to_nat N)) with N by (unfold N; lia).
    intros i j Hi Hj. apply ls_fac_dense; auto.
  Qed.

  (** Convex P: the factorisation succeeds with n positive pivots, whatever permutation AMD chose, and solves. *)
  Theorem convex_factor : (0 < sigma)%R -> psd (cn P) (sdns P) -> env_fac E (ls_fac ls) = cn P /\ LDL_factor E (ls_fac ls) (cn P) = 0 /\ solves E (ls_fac ls).
  Proof.
    intros Hs HP. pose proof (wf_n _ WP) as H1. pose proof (wf_m _ WA) as H2. destruct fac_g as [G1 G2].
    destruct (convex_pivots (cn P) (cm A) (sdns P) (dns A) sigma (fun k => - r k)%R (ls_perm ls)) as [R1 R2]; auto.
    { intros; apply sdns_sym. } { apply (lo_perm _ _ _ _ _ LO). } { intros k Hk. specialize (Hr k Hk). lra. }
    fold N in R1, R2. apply G1 in R1. pose proof (el_fac _ EX _ fac_wf (lo_triu _ _ _ _ _ LO) R1) as F. unfold g in G2. rewrite G2, R2 in F.
    split; auto. split; [|apply (el_solve _ EX _ fac_wf (lo_triu _ _ _ _ _ LO) R1)]. unfold LDL_factor. rewrite F. replace (cn P <? 0) with false by lia. rewrite Z.ltb_irrefl. auto.
  Qed.

  (** A successful factorisation: the Hessian plus penalty is positive definite, and solves are exact. *)
  Theorem factor_convex : LDL_factor E (ls_fac ls) (cn P) = 0 -> solves E (ls_fac ls) /\
    forall x, (exists i, 0 <= i < cn P /\ x i <> 0%R) -> (0 < penalised (cn P) (cm A) (sdns P) (dns A) sigma (fun k => - r k)%R x)%R.
  Proof.
    intros HF. pose proof (wf_n _ WP) as H1. pose proof (wf_m _ WA) as H2. destruct fac_g as [G1 G2].
    assert (Hge : cn P <= env_fac E (ls_fac ls)). { unfold LDL_factor in HF. destruct (Z.ltb_spec (env_fac E (ls_fac ls)) 0); [lia|]. destruct (Z.ltb_spec (env_fac E (ls_fac ls)) (cn P)); lia. }
    destruct (regular_dec (Z.to_nat (cn (ls_fac ls))) 0 (sdns (ls_fac ls))) as [HR|HR].
    2:{ pose proof (el_zero _ EX _ fac_wf (lo_triu _ _ _ _ _ LO) HR). lia. }
    split; [apply (el_solve _ EX _ fac_wf (lo_triu _ _ _ _ _ LO) HR)|].
    pose proof (el_fac _ EX _ fac_wf (lo_triu _ _ _ _ _ LO) HR) as F. rewrite G2 in F. apply G1 in HR.
    eapply pivots_convex; eauto. { intros; apply sdns_sym. } { apply (lo_perm _ _ _ _ _ LO). } { intros k Hk. specialize (Hr k Hk). lra. } fold N. unfold g in F. lia.
  Qed.
End Fac.
