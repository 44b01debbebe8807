(** Proofs about memory: the checker of AllocCheck.v run on osqp_setup, osqp_solve and
    osqp_cleanup in each configuration that matters. *)
From Coq Require Import ZArith List Bool String Arith Lia.
From Verif Require Import Alloc AllocCheck AllocSpec.
Import ListNotations.
Local Open Scope string_scope.
Local Open Scope list_scope.

(** * The ghost [refused] *)

Lemma refused_mono o fl : forall c st,
  match exec o fl c st with Go st' | Ret _ st' => refused st = true -> refused st' = true | Bad _ => True end.
Proof.
  induction c as [|c1 IH1 c2 IH2|z s kids|s|s|s|s|d s kids|s c1 IH1 c2 IH2|f c1 IH1 c2 IH2|z|c1 IH1 k IHk];
    intros st; cbn [exec]; auto.
  - specialize (IH1 st). destruct (exec o fl c1 st) as [s1|z s1|b]; auto.
    specialize (IH2 s1). destruct (exec o fl c2 s1); auto.
  - destruct (reach st s); auto. unfold do_alloc. destruct (o (req st) s); auto.
  - destruct (reach st s); auto.
  - destruct (reach st s); auto. destruct (lives st s); auto.
  - destruct (reach st s); auto. destruct (mem st s); auto.
  - destruct (reach st s); auto. unfold do_free. destruct (mem st s); auto. destruct (existsb _ _); auto.
  - destruct (reach st d); auto. destruct (reach st s); auto. unfold do_move. destruct (mem st s); auto.
  - destruct (reach st s); auto. destruct (mem st s); auto; [apply IH1|]. destruct (lives st s); auto. apply IH2.
  - destruct (fl f); [apply IH1|apply IH2].
  - specialize (IH1 st). destruct (exec o fl c1 st) as [s1|z s1|b]; auto.
    + specialize (IHk 0%Z s1). destruct (exec o fl (k 0%Z) s1); auto.
    + specialize (IHk z s1). destruct (exec o fl (k z) s1); auto.
Qed.

Lemma not_refused o fl c st : 
  match exec o fl c st with
  | Go st' | Ret _ st' => refused st' = false -> refused st = false
  | Bad _ => True end.
Proof.
  pose proof (refused_mono o fl c st) as H. destruct (exec o fl c st); auto; intro F;
    destruct (refused st); auto; rewrite H in F; auto.
Qed.

(** A run in which nothing was refused is the run with a generous allocator. *)
Lemma granted_run o fl : forall c st,
  match exec o fl c st with
  | Go st' | Ret _ st' => refused st' = false -> exec all_granted fl c st = exec o fl c st
  | Bad _ => True end.
Proof.
  induction c as [|c1 IH1 c2 IH2|z s kids|s|s|s|s|d s kids|s c1 IH1 c2 IH2|f c1 IH1 c2 IH2|z|c1 IH1 k IHk];
    intros st; cbn [exec]; auto.
  - specialize (IH1 st). destruct (exec o fl c1 st) as [s1|z s1|b]; auto.
    + pose proof (IH2 s1) as I2. pose proof (not_refused o fl c2 s1) as NR.
      destruct (exec o fl c2 s1) as [s2|z2 s2|b2]; auto; intro F; rewrite IH1; auto; apply NR, F.
    + intro F. rewrite IH1; auto.
  - destruct (reach st s); auto. unfold do_alloc, all_granted. destruct (o (req st) s); auto.
    intro F. discriminate.
  - destruct (reach st s); auto.
  - destruct (reach st s); auto. destruct (lives st s); auto.
  - destruct (reach st s); auto. destruct (mem st s); auto.
  - destruct (reach st s); auto. unfold do_free. destruct (mem st s); auto. destruct (existsb _ _); auto.
  - destruct (reach st d); auto. destruct (reach st s); auto. unfold do_move. destruct (mem st s); auto.
  - destruct (reach st s); auto. destruct (mem st s); auto. 
    + apply IH1.
    + destruct (lives st s); auto. apply IH2.
  - destruct (fl f); auto; [apply IH1|apply IH2].
  - specialize (IH1 st). destruct (exec o fl c1 st) as [s1|z s1|b]; auto.
    + pose proof (IHk 0%Z s1) as I2. pose proof (not_refused o fl (k 0%Z) s1) as NR.
      destruct (exec o fl (k 0%Z) s1) as [s2|z2 s2|b2]; auto; intro F; rewrite IH1; auto; apply NR, F.
    + pose proof (IHk z s1) as I2. pose proof (not_refused o fl (k z) s1) as NR.
      destruct (exec o fl (k z) s1) as [s2|z2 s2|b2]; auto; intro F; rewrite IH1; auto; apply NR, F.
Qed.

(** * Audits *)

Definition a0 : ast := AS [(sv, cN)] [].
Lemma rel_start : rel a0 start.
Proof.
  split.
  - split.
    + intros s t b _ _ [].
    + intros b [].
    + intros f p _ H. exfalso. unfold lives, start in H; cbn [mem live] in H. destruct (slot_eqb _ _); discriminate.
    + intros s b H. unfold start in H; cbn [mem] in H. destruct (slot_eqb s sv); discriminate.
  - intros s _. unfold may, start, a0, aget, look; cbn [mem tab]. destruct (slot_eqb s sv); reflexivity.
  - intro H. discriminate.
Qed.

(** Branches settled by the configuration; the choice of c only where it matters. *)
Definition known (a : bool) (c : option bool) (d : bool) (n : string) : option bool :=
  if String.eqb n "rho_is_vec" then Some a else if String.eqb n "allocate_solution" then c
  else if String.eqb n "m=0" then Some d else None.
Lemma known_ok fl0 fl c n b : same_config fl0 fl -> (forall v, c = Some v -> v = fl0 "allocate_solution") ->
  known (fl0 "rho_is_vec") c (fl0 "m=0") n = Some b -> fl n = b.
Proof.
  intros S C H. unfold known in H.
  assert (Q : forall m, In m config -> fl m = fl0 m) by exact S. unfold config in Q.
  destruct (String.eqb n "rho_is_vec") eqn:E1; [apply String.eqb_eq in E1; subst n; injection H as <-; apply Q; simpl; auto|].
  destruct (String.eqb n "allocate_solution") eqn:E3; [apply String.eqb_eq in E3; subst n; rewrite (C b H); apply Q; simpl; auto|].
  destruct (String.eqb n "m=0") eqn:E4; [apply String.eqb_eq in E4; subst n; injection H as <-; apply Q; simpl; auto|].
  discriminate.
Qed.

Definition none {A} (o : option A) : bool := match o with None => true | Some _ => false end.
Definition nil_ {A} (l : list A) : bool := match l with [] => true | _ => false end.

(** osqp_cleanup from an abstract state. *)
Definition audit_clean (a : ast) : bool :=
  match check (fun _ => false) (fun _ => None) cleanup a with
  | Some r => none (go r) && nil_ (bad r) && forallb (fun u => (fst u =? 0)%Z && clean (snd u)) (rts r)
  | None => false
  end.
Lemma audit_clean_ok o fl a st : audit_clean a = true -> rel a st -> cleans_up o fl st.
Proof.
  unfold audit_clean. intros H R. destruct (check _ _ cleanup a) as [r|] eqn:C; [|discriminate].
  apply andb_prop in H as [H H3]. apply andb_prop in H as [H1 H2].
  pose proof (check_sound (fun _ => false) (fun _ => None) o fl ltac:(discriminate) ltac:(discriminate) cleanup a r st C R) as K.
  unfold cleans_up. destruct (exec o fl cleanup st) as [s1|z s1|b].
  - destruct K as [x [K _]]. rewrite K in H1. discriminate.
  - destruct K as [a1 [I R1]]. rewrite forallb_forall in H3. specialize (H3 _ I). cbn [fst snd] in H3.
    apply andb_prop in H3 as [H3 H4]. apply Z.eqb_eq in H3. subst z. exists s1. split; auto.
    exact (clean_spec a1 s1 H4 R1).
  - simpl in K. destruct (bad r); [destruct K|discriminate].
Qed.

(** osqp_setup: every return satisfies [q], every misuse is in [l]. *)
Definition audit (l : list slot) (g : slot -> bool) (fa : string -> option bool) (q : Z -> ast -> bool) (c : cmd) (a : ast) : bool :=
  match check g fa c a with
  | Some r => none (go r) && forallb (fun s => memb s l) (bad r) && forallb (fun u => q (fst u) (snd u)) (rts r)
  | None => false
  end.
Lemma audit_ok l g fa q c a o fl st :
  audit l g fa q c a = true ->
  (forall k s, g s = true -> o k s = true) -> (forall n b, fa n = Some b -> fl n = b) -> rel a st ->
  match exec o fl c st with
  | Go _ => False
  | Ret z st' => exists a', q z a' = true /\ rel a' st'
  | Bad s => In s l
  end.
Proof.
  unfold audit. intros H HG HF R. destruct (check g fa c a) as [r|] eqn:C; [|discriminate].
  apply andb_prop in H as [H H3]. apply andb_prop in H as [H1 H2].
  pose proof (check_sound g fa o fl HG HF c a r st C R) as K.
  destruct (exec o fl c st) as [s1|z s1|b].
  - destruct K as [x [K _]]. rewrite K in H1. discriminate.
  - destruct K as [a1 [I R1]]. rewrite forallb_forall in H3. specialize (H3 _ I). eauto.
  - simpl in K. rewrite forallb_forall in H2. apply memb_spec, H2, K.
Qed.

Definition setup_code (z : Z) : bool := (z =? 0)%Z || (z =? LINSYS_INIT)%Z || (z =? NONCVX)%Z || (z =? MEM)%Z.
Definition q_any (z : Z) (a : ast) : bool := setup_code z && audit_clean a.
Definition q_strict (m0 : bool) (z : Z) (a : ast) : bool :=
  setup_code z && audit_clean a && (m0 || negb (z =? 0)%Z || nil_ (sus a)).

Lemma audit_any a d : audit setup_crashes (fun _ => false) (known a None d) q_any setup a0 = true.
Proof. destruct a, d; vm_compute; reflexivity. Qed.
Lemma audit_strict a c d :
  audit [] (fun s => memb s setup_unchecked) (known a (Some c) d) (q_strict (c && d)) setup a0 = true.
Proof. destruct a, c, d; vm_compute; reflexivity. Qed.

(** No failure of the factorisation. *)
Definition definite (f : string -> option bool) (n : string) : option bool :=
  if String.eqb n "etree fails" || String.eqb n "factor fails" then Some false else f n.
Lemma definite_ok fl f n b : not_quasidefinite fl = false -> (forall n b, f n = Some b -> fl n = b) ->
  definite f n = Some b -> fl n = b.
Proof.
  unfold not_quasidefinite, definite. intros H F E. apply orb_false_elim in H as [H1 H2].
  destruct (String.eqb n "etree fails") eqn:E1; [apply String.eqb_eq in E1; subst n; cbn in E; congruence|].
  destruct (String.eqb n "factor fails") eqn:E2; [apply String.eqb_eq in E2; subst n; cbn in E; congruence|].
  cbn in E. auto.
Qed.
Lemma audit_definite a d :
  audit setup_crashes (fun _ => false) (definite (known a None d)) (fun z _ => negb (z =? NONCVX)%Z) setup a0 = true.
Proof. destruct a, d; vm_compute; reflexivity. Qed.
Lemma audit_generous a d :
  audit [] (fun _ => true) (known a None d) (fun z _ => (z =? 0)%Z || (z =? NONCVX)%Z) setup a0 = true.
Proof. destruct a, d; vm_compute; reflexivity. Qed.
