(** What the calls of the interface mean for the problem as the user states it (no scaling, no solver). *)
From Coq Require Import ZArith Reals List Bool Lia Lra.
From Verif Require Import Num Arr ArrFacts RSum Csc CscSpec CscFacts Types Linsys Validate Auxil Api Inv RealVec ProbSpec History.
Open Scope Z_scope.

(** The first n numbers of the array a. *)
Definition taken (n : Z) (a v : list R) : Prop := @zlen R v = n /\ forall i, 0 <= i < n -> rnth v i = rnth a i.
(** An optional array argument: NULL keeps the old vector. *)
Definition new_vec (n : Z) (o : option (list R)) (old v : list R) : Prop :=
  match o with None => v = old | Some a => taken n a v end.
Definition all_le (m : Z) (l u : list R) : Prop := forall i, 0 <= i < m -> (rnth l i <= rnth u i)%R.

(** osqp_update_data_vec: all the vectors given are replaced, unless the resulting bounds cross; then nothing is. *)
Definition user_vec (d : data Rops) (q l u : option (list R)) (fl : Z) (d' : data Rops) : Prop :=
  exists q' l' u', new_vec (d_n d) q (d_q d) q' /\ new_vec (d_m d) l (d_l d) l' /\ new_vec (d_m d) u (d_u d) u' /\
    (all_le (d_m d) l' u' /\ d' = set_d_q q' (set_d_l l' (set_d_u u' d)) \/
     ~ all_le (d_m d) l' u' /\ d' = d /\ fl = OSQP_DATA_VALIDATION_ERROR).

(** An optional array of new values for the stored entries of M: all of them, or those listed in idx
    (if an entry is listed twice the last value counts). *)
Definition new_vals (M M' : csc Rops) (x : option (list R)) (idx : option (list Z)) (n : Z) : Prop :=
  match x with
  | None => M' = M
  | Some v => same_pat M M' /\ let n' := if n =? 0 then nnz M else n in
      match idx with
      | None => forall k, valx M' k = if (0 <=? k) && (k <? n') then rnth v k else valx M k
      | Some e =>
          (forall i, 0 <= i < n' -> (forall i', i < i' < n' -> znth 0 e i' <> znth 0 e i) -> valx M' (znth 0 e i) = rnth v i) /\
          (forall k, (forall i, 0 <= i < n' -> znth 0 e i <> k) -> valx M' k = valx M k)
      end
  end.
Definition count_ok (nz n : Z) (idx : option (list Z)) : Prop := 0 <= n <= nz /\ (idx = None -> n = 0 \/ n = nz).
Definition user_mat (d : data Rops) Px Pidx Pn Ax Aidx An (fl : Z) (d' : data Rops) : Prop :=
  (count_ok (nnz (d_P d)) Pn Pidx /\ count_ok (nnz (d_A d)) An Aidx /\
     exists P' A', new_vals (d_P d) P' Px Pidx Pn /\ new_vals (d_A d) A' Ax Aidx An /\ d' = set_d_A A' (set_d_P P' d)) \/
  (~ (count_ok (nnz (d_P d)) Pn Pidx /\ count_ok (nnz (d_A d)) An Aidx) /\ d' = d /\ (fl = 1 \/ fl = 2)).

Definition user_step (c : call Rops) (d : data Rops) (fl : Z) (d' : data Rops) : Prop :=
  match c with
  | CUpdVec q l u => user_vec d q l u fl d'
  | CUpdMat Px Pidx Pn Ax Aidx An => user_mat d Px Pidx Pn Ax Aidx An fl d'
  | _ => d' = d
  end.

(** A copy of a sparse matrix: the same entries, perhaps less storage. *)
Definition copy_of {K : NumOps} (A B : csc K) : Prop :=
  cm B = cm A /\ cn B = cn A /\ nnz B = nnz A /\ (forall j, 0 <= j <= cn A -> colp B j = colp A j) /\
  (forall k, 0 <= k < nnz A -> rowi B k = rowi A k /\ znth n0 (cx B) k = znth n0 (cx A) k).
(** The problem passed to osqp_setup. *)
Definition user_init (P A : csc Rops) (q l u : option (list R)) (m n : Z) (d : data Rops) : Prop :=
  d_n d = n /\ d_m d = m /\ copy_of P (d_P d) /\ copy_of A (d_A d) /\
  (forall v, q = Some v -> taken n v (d_q d)) /\ (forall v, l = Some v -> taken m v (d_l d)) /\ (forall v, u = Some v -> taken m v (d_u d)).

Lemma copy_dns (A B : csc Rops) : wf A -> copy_of A B -> forall i j, 0 <= j < cn A -> dns B i j = dns A i j.
Proof.
  intros W (_ & _ & _ & HC & HR) i j Hj. unfold dns. rewrite !HC by lia. apply zsum_ext. intros k Hk.
  destruct (HR k) as [-> HV]; [eapply slot_range; eauto|]. rewrite n0_R in HV. unfold valx, rnth. change (car Rops) with R in HV. rewrite HV. reflexivity.
Qed.

Lemma taken_unique n a v v' : taken n a v -> taken n a v' -> v = v'.
Proof. intros [L V] [L' V']. apply rlist_ext; [lia|]. intros i Hi. rewrite V, V' by lia. auto. Qed.
Lemma new_vec_unique n o old v v' : new_vec n o old v -> new_vec n o old v' -> v = v'.
Proof. destruct o; cbn [new_vec]; [apply taken_unique|congruence]. Qed.

(** The last position at which a value occurs. *)
Lemma last_occ (e : list Z) n k : (exists i, 0 <= i < n /\ znth 0 e i = k) ->
  exists i, 0 <= i < n /\ znth 0 e i = k /\ forall i', i < i' < n -> znth 0 e i' <> k.
Proof.
  intros (i & Hi & Ei). assert (H : forall t : nat, forall i, 0 <= i < n -> znth 0 e i = k -> n - i <= Z.of_nat t ->
    exists i, 0 <= i < n /\ znth 0 e i = k /\ forall i', i < i' < n -> znth 0 e i' <> k).
  { induction t as [|t IH]; intros j Hj Ej Ht; [lia|].
    destruct (existsb (fun x => znth 0 e x =? k) (zseq (j + 1) n)) eqn:Ex.
    - apply existsb_exists in Ex as (x & Hx & Ex). apply In_zseq in Hx. apply (IH x); lia.
    - exists j. split; auto. split; auto. intros i' Hi' E'. assert (HT : existsb (fun x => znth 0 e x =? k) (zseq (j + 1) n) = true); [|congruence].
      apply existsb_exists. exists i'. rewrite In_zseq. lia. }
  apply (H (Z.to_nat (n - i)) i); auto. lia.
Qed.
Lemma new_vals_unique M x idx n M1 M2 : new_vals M M1 x idx n -> new_vals M M2 x idx n -> M1 = M2.
Proof.
  destruct x as [v|]; cbn [new_vals]; [|congruence]. intros [P1 V1] [P2 V2].
  assert (HV : forall k, valx M1 k = valx M2 k).
  { intros k. cbv zeta in *. set (n' := if n =? 0 then nnz M else n) in *. destruct idx as [e|]; [|rewrite V1, V2; auto].
    destruct V1 as [V1 U1], V2 as [V2 U2].
    destruct (existsb (fun i => znth 0 e i =? k) (zseq 0 n')) eqn:Ex.
    - apply existsb_exists in Ex as (i & Hi & Ei). apply In_zseq in Hi. destruct (last_occ e n' k) as (j & Hj & Ej & Hl); [exists i; lia|].
      subst k. rewrite V1, V2; auto.
    - assert (Hn : forall i, 0 <= i < n' -> znth 0 e i <> k).
      { intros i Hi Ei. assert (HT : existsb (fun i => znth 0 e i =? k) (zseq 0 n') = true); [|congruence]. apply existsb_exists. exists i. rewrite In_zseq. lia. }
      rewrite U1, U2 by auto. auto. }
  destruct P1 as [E1 L1], P2 as [E2 L2]. rewrite E1, E2. f_equal. apply rlist_ext; [change (car Rops) with R in *; lia|]. intros i _. apply HV.
Qed.
Lemma user_step_unique c d fl d1 d2 : user_step c d fl d1 -> user_step c d fl d2 -> d1 = d2.
Proof.
  destruct c; cbn [user_step]; try congruence.
  - intros (q1 & l1 & u1 & Q1 & L1 & U1 & H1) (q2 & l2 & u2 & Q2 & L2 & U2 & H2).
    rewrite (new_vec_unique _ _ _ _ _ Q1 Q2), (new_vec_unique _ _ _ _ _ L1 L2), (new_vec_unique _ _ _ _ _ U1 U2) in *.
    destruct H1 as [(A1 & ->)|(A1 & -> & _)], H2 as [(A2 & ->)|(A2 & -> & _)]; auto; contradiction.
  - intros [(A1 & B1 & P1 & M1 & HP1 & HM1 & ->)|(A1 & -> & _)] [(A2 & B2 & P2 & M2 & HP2 & HM2 & ->)|(A2 & -> & _)]; auto; try tauto.
    rewrite (new_vals_unique _ _ _ _ _ _ HP1 HP2), (new_vals_unique _ _ _ _ _ _ HM1 HM2). auto.
Qed.

(** The user's view only ever moves by user_step: histories with the problem alongside. *)
Section Hist.
  Variable E : Env Rops.
  Inductive hist (s0 : solver Rops) (d0 : data Rops) : solver Rops -> data Rops -> Prop :=
  | hist_0 : hist s0 d0 s0 d0
  | hist_S : forall s d c fl s' d', hist s0 d0 s d -> args_ok c s -> run E c s = Some (fl, HSolver s') -> user_step c d fl d' -> hist s0 d0 s' d'.
End Hist.
