(** The dense vector kernels over the reals, component by component. *)
From Coq Require Import ZArith Reals List Bool Lia Lra.
From Verif Require Import Num Arr ArrFacts RSum Csc CscSpec CscFacts CscFacts2 Scatter Vec VecFacts Inv InvStep RecSimp.
Import ListNotations.
Open Scope Z_scope.

(** Unification finds the reals from their carrier. *)
Canonical Structure Rops.

Notation rlen v := (@zlen R v).

Lemma rs_v1 {X A} (d : A) (x : list X) (f : A -> R) a : zlen x = zlen a ->
  safe (v1 x f a) (fun r => rlen r = zlen a /\ forall i, 0 <= i < zlen a -> rnth r i = f (znth d a i)).
Proof.
  intros H. rewrite v1_ok by auto. apply safe_ret. split; [apply zlen_map|].
  intros i Hi. unfold rnth. rewrite (znth_map 0%R d) by lia. auto.
Qed.

Lemma rs_v2 {X} (x : list X) (f : R -> R -> R) a b : zlen x = rlen a -> rlen a = rlen b ->
  safe (v2 x f a b) (fun r => rlen r = zlen x /\ forall i, 0 <= i < zlen x -> rnth r i = f (rnth a i) (rnth b i)).
Proof.
  intros H H'. rewrite v2_ok by auto. apply safe_ret. split; [rewrite zlen_zip; lia|].
  intros i Hi. unfold rnth. rewrite (znth_zip 0%R 0%R 0%R) by lia. auto.
Qed.

Lemma rs_v3 {X} (x : list X) (f : R -> R -> R -> R) a b c : zlen x = rlen a -> rlen a = rlen b -> rlen b = rlen c ->
  safe (v3 x f a b c) (fun r => rlen r = zlen x /\ forall i, 0 <= i < zlen x -> rnth r i = f (rnth a i) (rnth b i) (rnth c i)).
Proof.
  intros H H' H''. rewrite v3_ok by auto. apply safe_ret. split; [rewrite zlen_zip3; lia|].
  intros i Hi. unfold rnth. rewrite (znth_zip3 0%R 0%R 0%R 0%R) by lia. auto.
Qed.

Lemma rs_add_scaled al (x : list R) (sa : R) a (sb : R) b : rlen x = rlen a -> rlen a = rlen b ->
  safe (@vf_add_scaled Rops al x sa a sb b)
    (fun r => rlen r = rlen x /\ forall i, 0 <= i < rlen x -> rnth r i = (sa * rnth a i + sb * rnth b i)%R).
Proof.
  intros H H'. unfold vf_add_scaled. destruct (al && _) eqn:Ea.
  - apply andb_true_iff in Ea as [_ Ea]. cbn [neqb Rops] in Ea. unfold Reqb in Ea. destruct (Req_EM_T sa (@n1 Rops)) as [->|]; [|discriminate].
    eapply safe_weaken; [apply (rs_v2 x); auto|]. intros r [L V]. split; auto. intros i Hi. rewrite V by auto. rewrite n1_R. cbn. lra.
  - eapply safe_weaken; [apply (rs_v2 x); auto|]. auto.
Qed.

Lemma rs_add_scaled3 al (x : list R) (sa : R) a (sb : R) b (sc : R) c : rlen x = rlen a -> rlen a = rlen b -> rlen b = rlen c ->
  safe (@vf_add_scaled3 Rops al x sa a sb b sc c)
    (fun r => rlen r = rlen x /\ forall i, 0 <= i < rlen x -> rnth r i = (sa * rnth a i + sb * rnth b i + sc * rnth c i)%R).
Proof.
  intros H H' H''. unfold vf_add_scaled3. destruct (al && _) eqn:Ea.
  - apply andb_true_iff in Ea as [_ Ea]. cbn [neqb Rops] in Ea. unfold Reqb in Ea. destruct (Req_EM_T sa (@n1 Rops)) as [->|]; [|discriminate].
    eapply safe_weaken; [apply (rs_v3 x); auto|]. intros r [L V]. split; auto. intros i Hi. rewrite V by auto. rewrite n1_R. cbn. lra.
  - eapply safe_weaken; [apply (rs_v3 x); auto|]. auto.
Qed.

Lemma rs_view (a : list R) h n : 0 <= h -> 0 <= n -> h + n <= rlen a ->
  safe (view a h n) (fun r => rlen r = n /\ forall i, 0 <= i < n -> rnth r i = rnth a (h + i)).
Proof. intros H1 H2 H3. destruct (view_ok 0%R a h n H1 H2 H3) as (v & -> & L & V). apply safe_ret. auto. Qed.

Lemma rs_view_write (a : list R) h n v : 0 <= h -> 0 <= n -> h + n <= rlen a -> rlen v = n ->
  safe (view_write a h n v) (fun r => rlen r = rlen a /\
    forall i, 0 <= i < rlen a -> rnth r i = if (h <=? i) && (i <? h + n) then rnth v (i - h) else rnth a i).
Proof. intros H1 H2 H3 H4. destruct (view_write_ok 0%R a h n v H1 H2 H3 H4) as (r & -> & L & V). apply safe_ret. auto. Qed.

Lemma rs_dot (a b : list R) : rlen a = rlen b ->
  safe (@vf_dot_prod Rops a b) (fun r => r = zsum 0 (rlen a) (fun i => rnth a i * rnth b i)%R).
Proof. intros H. rewrite vf_dot_prod_spec by auto. apply safe_ret. auto. Qed.

Lemma rs_dot_signed (a b : list R) sg : rlen a = rlen b ->
  safe (@vf_dot_prod_signed Rops a b sg) (fun r => r = zsum 0 (rlen a) (fun i => rnth a i *
      (if sg =? 1 then Rmax (rnth b i) 0 else if sg =? -1 then Rmin (rnth b i) 0 else rnth b i))%R).
Proof. intros H. rewrite vf_dot_prod_signed_spec by auto. apply safe_ret. auto. Qed.

Lemma rs_scaled_norm (S v : list R) : rlen S = rlen v ->
  safe (@vf_scaled_norm_inf Rops S v) (fun r => is_maxabs (vals (rlen v) (fun i => rnth S i * rnth v i)%R) r).
Proof. intros H. destruct (vf_scaled_norm_inf_spec S v H) as (r & -> & Hr). apply safe_ret. auto. Qed.

Lemma rs_Axpy (A : csc Rops) (x y : list R) (al be : R) : wf A -> cn A <= rlen x -> rlen y = cm A ->
  safe (@csc_Axpy Rops A x y al be) (fun r => rlen r = cm A /\
    forall i, 0 <= i < cm A -> rnth r i = (al * zsum 0 (cn A) (fun j => dns A i j * rnth x j) + be * rnth y i)%R).
Proof. intros. destruct (csc_Axpy_correct A x y al be) as (r & -> & L & V); auto. apply safe_ret. auto. Qed.
Lemma rs_Atxpy (A : csc Rops) (x y : list R) (al be : R) : wf A -> cm A <= rlen x -> rlen y = cn A ->
  safe (@csc_Atxpy Rops A x y al be) (fun r => rlen r = cn A /\
    forall j, 0 <= j < cn A -> rnth r j = (al * zsum 0 (cm A) (fun i => dns A i j * rnth x i) + be * rnth y j)%R).
Proof. intros. destruct (csc_Atxpy_correct A x y al be) as (r & -> & L & V); auto. apply safe_ret. auto. Qed.
Lemma rs_symv (A : csc Rops) (x y : list R) (al be : R) : wf A -> triu A -> cn A <= rlen x -> rlen y = cm A ->
  safe (@csc_Axpy_sym_triu Rops A x y al be) (fun r => rlen r = cm A /\
    forall i, 0 <= i < cm A -> rnth r i = (al * zsum 0 (cn A) (fun j => sdns A i j * rnth x j) + be * rnth y i)%R).
Proof. intros. destruct (csc_Axpy_sym_triu_correct A x y al be) as (r & -> & L & V); auto. apply safe_ret. auto. Qed.

Lemma rnth_map (f : R -> R) (a : list R) i : 0 <= i < rlen a -> rnth (map f a) i = f (rnth a i).
Proof. intros. unfold rnth. rewrite (znth_map 0%R 0%R) by auto. auto. Qed.

Lemma rs_from_raw (b av : list R) : rlen b <= rlen av ->
  safe (@vf_from_raw Rops b av) (fun r => rlen r = rlen b /\ forall i, 0 <= i < rlen b -> rnth r i = rnth av i).
Proof. intros. pose proof (zlen_nonneg b). apply (rs_view av 0); lia. Qed.

(** Lists of reals with the same components are equal. *)
Lemma rlist_ext (a b : list R) : rlen a = rlen b -> (forall i, 0 <= i < rlen a -> rnth a i = rnth b i) -> a = b.
Proof. intros. apply (list_ext_znth 0%R); auto. Qed.

(** Literals *)
Lemma lit_R m e : @nlit Rops m e = (IZR m * powerRZ 10 e)%R. Proof. reflexivity. Qed.
Ltac lit_tac :=
  match goal with |- _ = (/ ?x)%R => change (1 * / x = / x)%R | |- _ = ?x => change (1 * x = x)%R end; ring.
Lemma rho_min_R : OSQP_RHO_MIN Rops = (/ 10 ^ 6)%R.
Proof. lit_tac. Qed.
Lemma rho_max_R : OSQP_RHO_MAX Rops = (10 ^ 6)%R.
Proof. lit_tac. Qed.
Lemma rho_eq_R : OSQP_RHO_EQ_OVER_RHO_INEQ Rops = (10 ^ 3)%R.
Proof. lit_tac. Qed.
Lemma infty_R : OSQP_INFTY Rops = (10 ^ 30)%R.
Proof. lit_tac. Qed.
Lemma min_scaling_R : OSQP_MIN_SCALING Rops = (/ 10 ^ 4)%R.
Proof. lit_tac. Qed.
Lemma max_scaling_R : OSQP_MAX_SCALING Rops = (10 ^ 4)%R.
Proof. lit_tac. Qed.
Lemma rho_tol_R : OSQP_RHO_TOL Rops = (/ 10 ^ 4)%R.
Proof. lit_tac. Qed.
Lemma deadzone_R : OSQP_ZERO_DEADZONE Rops = (/ 10 ^ 15)%R.
Proof. lit_tac. Qed.
Lemma div_tol_R : OSQP_DIVISION_TOL Rops = (/ 10 ^ 30)%R.
Proof. unfold OSQP_DIVISION_TOL. rewrite infty_R, n1_R. cbn [ndiv Rops]. unfold Rdiv. lra. Qed.
Lemma MM_R : nltb (OSQP_RHO_MIN Rops) (OSQP_RHO_MAX Rops) = true.
Proof. rewrite rho_min_R, rho_max_R. apply Rltb_iff. lra. Qed.
