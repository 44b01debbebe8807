(** Proofs about memory, continued: the statements of C50 and C71. *)
From Coq Require Import ZArith List Bool String Arith Lia.
From Verif Require Import Alloc AllocCheck AllocSpec AllocFacts.
Import ListNotations.
Local Open Scope string_scope.
Local Open Scope list_scope.

Lemma same_refl fl : same_config fl fl.
Proof. intros n _. reflexivity. Qed.

Lemma kn fl0 fl : same_config fl0 fl -> forall n b, known (fl0 "rho_is_vec") None (fl0 "m=0") n = Some b -> fl n = b.
Proof. intros S n b. apply (known_ok fl0 fl None n b S). intros v V. discriminate V. Qed.
Lemma kc fl n b : known (fl "rho_is_vec") (Some (fl "allocate_solution")) (fl "m=0") n = Some b -> fl n = b.
Proof. apply (known_ok fl fl _ n b (same_refl fl)). intros v V. injection V as <-. reflexivity. Qed.

Lemma code_cases z : setup_code z = true -> z = 0%Z \/ z = LINSYS_INIT \/ z = NONCVX \/ z = MEM.
Proof.
  unfold setup_code. intro H. repeat (apply orb_prop in H as [H|H]); apply Z.eqb_eq in H; auto.
Qed.

Lemma setup_any o fl :
  match exec o fl setup start with
  | Go _ => False
  | Ret z st => (z = 0%Z \/ z = LINSYS_INIT \/ z = NONCVX \/ z = MEM) /\ forall o' fl', cleans_up o' fl' st
  | Bad s => In s setup_crashes
  end.
Proof.
  pose proof (audit_ok _ _ _ _ _ _ o fl start (audit_any (fl "rho_is_vec") (fl "m=0"))
    ltac:(discriminate) (kn fl fl (same_refl fl)) rel_start) as H.
  destruct (exec o fl setup start) as [s1|z s1|b]; auto.
  destruct H as [a [Q R]]. unfold q_any in Q. apply andb_prop in Q as [Q1 Q2].
  split; [apply code_cases, Q1|]. intros o' fl'. exact (audit_clean_ok o' fl' a s1 Q2 R).
Qed.

Lemma setup_balanced o fl : grants o setup_unchecked ->
  exists z st, exec o fl setup start = Ret z st /\ (forall o' fl', cleans_up o' fl' st) /\
    (z = 0%Z -> fl "allocate_solution" && fl "m=0" = false -> refused st = false).
Proof.
  intro G.
  pose proof (audit_ok _ _ _ _ _ _ o fl start (audit_strict (fl "rho_is_vec") (fl "allocate_solution") (fl "m=0"))) as H.
  specialize (H (fun k s M => G k s (proj1 (memb_spec s setup_unchecked) M))
                (kc fl) rel_start).
  destruct (exec o fl setup start) as [s1|z s1|b]; [destruct H| |destruct H].
  destruct H as [a [Q R]]. unfold q_strict in Q. apply andb_prop in Q as [Q Q3]. apply andb_prop in Q as [Q1 Q2].
  exists z, s1. split; auto. split; [intros o' fl'; exact (audit_clean_ok o' fl' a s1 Q2 R)|].
  intros -> M. rewrite M in Q3. simpl in Q3. destruct (refused s1) eqn:F; auto.
  destruct (rl_sus a s1 R F) as [t [T _]]. destruct (sus a); [destruct T|discriminate Q3].
Qed.

Lemma setup_codes o fl z st : exec o fl setup start = Ret z st ->
  (z = NONCVX -> not_quasidefinite fl = true) /\
  (z = LINSYS_INIT \/ z = MEM -> refused st = true).
Proof.
  intro E. split.
  - intro Z4. destruct (not_quasidefinite fl) eqn:N; auto. exfalso.
    pose proof (audit_ok _ _ _ _ _ _ o fl start (audit_definite (fl "rho_is_vec") (fl "m=0"))
      ltac:(discriminate)) as H.
    specialize (H (fun n b => definite_ok fl _ n b N (kn fl fl (same_refl fl))) rel_start).
    rewrite E in H. destruct H as [a [Q _]]. rewrite Z4 in Q. discriminate Q.
  - intro Zm. destruct (refused st) eqn:F; auto. exfalso.
    pose proof (granted_run o fl setup start) as G. rewrite E in G. specialize (G F).
    pose proof (audit_ok _ _ _ _ _ _ all_granted fl start (audit_generous (fl "rho_is_vec") (fl "m=0"))
      ltac:(reflexivity) (kn fl fl (same_refl fl)) rel_start) as H.
    rewrite G in H. destruct H as [a [Q _]]. destruct Zm as [-> | ->]; discriminate Q.
Qed.

Lemma setup_generous fl : not_quasidefinite fl = false ->
  exists st, exec all_granted fl setup start = Ret 0 st.
Proof.
  intro N.
  pose proof (audit_ok _ _ _ _ _ _ all_granted fl start (audit_generous (fl "rho_is_vec") (fl "m=0"))
    ltac:(reflexivity) (kn fl fl (same_refl fl)) rel_start) as H.
  destruct (exec all_granted fl setup start) as [s1|z s1|b] eqn:E; [destruct H| |destruct H].
  destruct H as [a [Q _]]. apply orb_prop in Q as [Q|Q]; apply Z.eqb_eq in Q; subst z; [eauto|].
  destruct (setup_codes all_granted fl NONCVX s1 E) as [K _]. rewrite K in N by reflexivity. discriminate N.
Qed.

(** * Sessions *)

Definition cle (c d : cls) : bool :=
  (negb (cn c) || cn d) && (negb (cw c) || cw d) && (negb (cl c) || cl d) && (negb (cd c) || cd d).
Definition within (a b : ast) : bool :=
  forallb (fun s => negb (pl a (tl s)) || cle (aget a s) (aget b s)) (map fst (tab a) ++ map fst (tab b)) &&
  forallb (fun s => memb s (sus b)) (sus a).

Lemma haskey_in l s : haskey l s = true -> In s (map fst l).
Proof.
  unfold haskey. intro H. apply existsb_exists in H as [u [U E]]. apply seqb_spec in E. subst s.
  apply in_map. exact U.
Qed.
Lemma within_ok a b st : within a b = true -> rel a st -> rel b st.
Proof.
  unfold within. intros H R. apply andb_prop in H as [H1 H2]. rewrite forallb_forall in H1, H2.
  split; [exact (rl_own a st R)| |].
  - intros s Hs. pose proof (rl_tab a st R s Hs) as M.
    destruct (haskey (tab a) s || haskey (tab b) s) eqn:K.
    + assert (I : In s (map fst (tab a) ++ map fst (tab b))).
      { apply in_or_app. apply orb_prop in K as [K|K]; apply haskey_in in K; auto. }
      specialize (H1 s I). rewrite (rel_pl_tl a st s R Hs) in H1. simpl in H1.
      unfold cle in H1. apply andb_prop in H1 as [H1 C4]. apply andb_prop in H1 as [H1 C3]. apply andb_prop in H1 as [C1 C2].
      unfold may in *. destruct (mem st s) as [| |e].
      * rewrite M in C1. exact C1.
      * rewrite M in C2. exact C2.
      * destruct (existsb (Nat.eqb e) (live st)); [rewrite M in C3; exact C3|rewrite M in C4; exact C4].
    + apply orb_false_elim in K as [K1 K2]. unfold aget in *. rewrite look_out in * by assumption. exact M.
  - intro F. destruct (rl_sus a st R F) as [t [T1 T2]]. exists t. split; auto. apply memb_spec, H2, T1.
Qed.

(** The states after osqp_setup has returned 0, closed under osqp_solve. *)
Definition returned (r : option rep) (q : Z -> bool) (acc : ast) : ast :=
  match r with
  | Some r => fold_left (fun a (u : Z * ast) => if q (fst u) then ajoin a (snd u) else a) (rts r) acc
  | None => acc
  end.
Definition first_zero (r : option rep) : ast :=
  match r with
  | Some r => match find (fun u => (fst u =? 0)%Z) (rts r) with Some u => snd u | None => a0 end
  | None => a0
  end.
Definition closure (g : slot -> bool) (fa : string -> option bool) : ast :=
  let a := first_zero (check g fa setup a0) in
  let b := returned (check g fa solve a) (fun _ => true) a in
  returned (check g fa solve b) (fun _ => true) b.

Definition gp (s : slot) : bool := memb s (setup_unchecked ++ polish_unchecked).

Definition audit_session (fa : string -> option bool) : bool :=
  let A := closure gp fa in
  audit [] gp fa (fun z a => negb (z =? 0)%Z || within a A) setup a0 &&
  audit [] gp fa (fun _ a => within a A) solve A && audit_clean A.
Lemma audit_sessions a d : audit_session (known a None d) = true.
Proof. destruct a, d; vm_compute; reflexivity. Qed.

Lemma audit_split fa : audit_session fa = true -> exists A,
  audit [] gp fa (fun z a => negb (z =? 0)%Z || within a A) setup a0 = true /\
  audit [] gp fa (fun _ a => within a A) solve A = true /\ audit_clean A = true.
Proof.
  unfold audit_session. intro H. exists (closure gp fa). revert H. generalize (closure gp fa). intros A H.
  cbv zeta in H. apply andb_prop in H as [H H3]. apply andb_prop in H as [H1 H2]. auto.
Qed.

Lemma session_gen fa A o fl calls st :
  (forall f, same_config fl f -> forall n b, fa n = Some b -> f n = b) ->
  audit [] gp fa (fun z a => negb (z =? 0)%Z || within a A) setup a0 = true ->
  audit [] gp fa (fun _ a => within a A) solve A = true -> audit_clean A = true ->
  grants o (setup_unchecked ++ polish_unchecked) -> (forall f, In f calls -> same_config fl f) ->
  exec o fl setup start = Ret 0 st ->
  exists st', solves_ o calls st = Go st' /\ forall o' fl', cleans_up o' fl' st'.
Proof.
  intros KN H1 H2 H3 G SC E.
  assert (GP : forall k s, gp s = true -> o k s = true) by (intros k s M; apply G, memb_spec, M).
  pose proof (audit_ok _ _ _ _ _ _ o fl start H1 GP (KN fl (same_refl fl)) rel_start) as S.
  rewrite E in S. destruct S as [a [Q R]]. cbn [negb Z.eqb orb] in Q. apply (within_ok a A st Q) in R. clear E H1 a Q.
  revert st R. induction calls as [|f calls IH]; intros st R.
  - exists st. split; [reflexivity|]. intros o' fl'. exact (audit_clean_ok o' fl' A st H3 R).
  - cbn [solves_].
    pose proof (audit_ok _ _ _ _ _ _ o f st H2 GP (KN f (SC f (or_introl eq_refl))) R) as S.
    destruct (exec o f solve st) as [s1|z s1|b]; [destruct S| |destruct S].
    destruct S as [a [Q R1]]. apply (within_ok a A s1 Q) in R1.
    apply IH; [|exact R1]. intros f' I. apply SC. right. exact I.
Qed.

Lemma session_ok o fl calls st :
  grants o (setup_unchecked ++ polish_unchecked) -> (forall f, In f calls -> same_config fl f) ->
  exec o fl setup start = Ret 0 st ->
  exists st', solves_ o calls st = Go st' /\ forall o' fl', cleans_up o' fl' st'.
Proof.
  destruct (audit_split _ (audit_sessions (fl "rho_is_vec") (fl "m=0")))
    as [A [H1 [H2 H3]]].
  exact (session_gen _ A o fl calls st (kn fl) H1 H2 H3).
Qed.

(** * Witnesses *)

(** A run with scaling, a rho vector, polishing and constraints. *)
Definition usual (n : string) : bool :=
  String.eqb n "rho_is_vec" || String.eqb n "scaling" || String.eqb n "allocate_solution" || String.eqb n "polishing and solved".

Definition is_bad (s : slot) (x : out) : bool := match x with Bad t => slot_eqb s t | _ => false end.
Lemma is_bad_ok s x : is_bad s x = true -> x = Bad s.
Proof. destruct x; try discriminate. simpl. intro H. apply seqb_spec in H. congruence. Qed.

Lemma crash_all : forallb (fun s => is_bad s (exec (only_refuses s) usual setup start)) setup_crashes = true.
Proof. vm_compute. reflexivity. Qed.
Lemma crash_one s : In s setup_crashes -> exec (only_refuses s) usual setup start = Bad s.
Proof.
  intro I. apply is_bad_ok. pose proof crash_all as H. rewrite forallb_forall in H. exact (H s I).
Qed.

Definition silently (x : out) : bool := match x with Ret 0 st => refused st | _ => false end.
Lemma silent_all : forallb (fun s => silently (exec (only_refuses s) usual setup start)) setup_silent = true.
Proof. vm_compute. reflexivity. Qed.
Lemma silent_one s : In s setup_silent ->
  exists st, exec (only_refuses s) usual setup start = Ret 0 st /\ refused st = true.
Proof.
  intro I. pose proof silent_all as H. rewrite forallb_forall in H. specialize (H s I). unfold silently in H.
  destruct (exec (only_refuses s) usual setup start) as [|[| |] st|]; try discriminate H. exists st. split; [reflexivity|exact H].
Qed.

Definition then_solve (o : nat -> slot -> bool) (x : out) : out :=
  match x with Ret 0 st => exec o usual solve st | Ret _ _ => Go start | r => r end.
Lemma amd_uninitialised s : In s [["Len"]; ["APinv"]; ["S"]] ->
  exists st, exec (only_refuses s) usual setup start = Ret 0 st /\
             exec all_granted usual solve st = Bad (ls ~> "P" ~> "[]").
Proof.
  intro I. assert (J : In s setup_silent) by (unfold setup_silent; simpl in *; tauto).
  destruct (silent_one s J) as [st [E _]]. exists st. split; auto.
  assert (K : is_bad (ls ~> "P" ~> "[]") (then_solve all_granted (exec (only_refuses s) usual setup start)) = true).
  { destruct I as [<-|[<-|[<-|[]]]]; vm_compute; reflexivity. }
  rewrite E in K. apply is_bad_ok in K. exact K.
Qed.

(** Blocks left after osqp_setup, one osqp_solve and osqp_cleanup. *)
Definition left_over (o : nat -> slot -> bool) (fl : string -> bool) : option nat :=
  match exec o fl setup start with
  | Ret 0 st => match exec o fl solve st with
                | Ret _ st1 => match exec o fl cleanup st1 with Ret 0 st2 => Some (List.length (live st2)) | _ => None end
                | _ => None
                end
  | _ => None
  end.
Lemma left_over_ok o fl n : left_over o fl = Some n -> exists st z st1 st2,
  exec o fl setup start = Ret 0 st /\ exec o fl solve st = Ret z st1 /\
  exec o fl cleanup st1 = Ret 0 st2 /\ List.length (live st2) = n.
Proof.
  unfold left_over. destruct (exec o fl setup start) as [|[| |] st|]; intro H; try discriminate H.
  destruct (exec o fl solve st) as [|z st1|] eqn:E1; try discriminate H.
  destruct (exec o fl cleanup st1) as [|[| |] st2|] eqn:E2; try discriminate H. injection H as H.
  exists st, z, st1, st2. auto.
Qed.

Definition leaks (u : slot * nat) : bool := match left_over (only_refuses (fst u)) usual with Some n => Nat.eqb n (snd u) | _ => false end.
Lemma leak_all : forallb leaks polish_leaks = true.
Proof. vm_compute. reflexivity. Qed.
Lemma leak_one s k : In (s, k) polish_leaks -> exists st z st1 st2,
  exec (only_refuses s) usual setup start = Ret 0 st /\ exec (only_refuses s) usual solve st = Ret z st1 /\
  exec (only_refuses s) usual cleanup st1 = Ret 0 st2 /\ List.length (live st2) = k.
Proof.
  intro I. pose proof leak_all as H. rewrite forallb_forall in H. specialize (H _ I). unfold leaks in H. cbn [fst snd] in H.
  destruct (left_over (only_refuses s) usual) as [n|] eqn:E; try discriminate H. apply Nat.eqb_eq in H. subst n.
  destruct (left_over_ok _ _ _ E) as [st [z [st1 [st2 [A [B [C D]]]]]]]. exists st, z, st1, st2. auto.
Qed.

Definition pol_crash (u : slot * slot) : bool := is_bad (snd u) (then_solve (only_refuses (fst u)) (exec (only_refuses (fst u)) usual setup start)).
Lemma pol_crash_all : forallb pol_crash polish_crashes = true.
Proof. vm_compute. reflexivity. Qed.
Lemma pol_crash_one s t : In (s, t) polish_crashes -> exists st,
  exec (only_refuses s) usual setup start = Ret 0 st /\ exec (only_refuses s) usual solve st = Bad t.
Proof.
  intro I. pose proof pol_crash_all as H. rewrite forallb_forall in H. specialize (H _ I). unfold pol_crash in H.
  cbn [fst snd] in H. apply is_bad_ok in H. unfold then_solve in H.
  assert (X : match exec (only_refuses s) usual setup start with Bad _ => false | _ => true end = true).
  { assert (Y : forallb (fun u : slot * slot => match exec (only_refuses (fst u)) usual setup start with Bad _ => false | _ => true end) polish_crashes = true)
      by (vm_compute; reflexivity).
    rewrite forallb_forall in Y. exact (Y _ I). }
  destruct (exec (only_refuses s) usual setup start) as [|[| |] st|]; try discriminate H; [|discriminate X].
  exists st. split; [reflexivity|exact H].
Qed.

(** * Examples *)

Lemma grants_dec o l (g : slot -> bool) : (forall k s, g s = true -> o k s = true) -> forallb g l = true -> grants o l.
Proof. intros H F k s I. rewrite forallb_forall in F. apply H, F, I. Qed.

Definition sum_ret (x : out) : option (Z * nat * bool) :=
  match x with Ret z st => Some (z, List.length (live st), refused st) | _ => None end.
Lemma sum_ret_ok x z n b : sum_ret x = Some (z, n, b) ->
  exists st, x = Ret z st /\ List.length (live st) = n /\ refused st = b.
Proof. destruct x as [|y st|]; simpl; intro H; try discriminate H. injection H as <- <- <-. eauto. Qed.

Lemma balanced_ex : grants (only_refuses (sc ~> "E")) setup_unchecked /\
  exists st, exec (only_refuses (sc ~> "E")) usual setup start = Ret MEM st /\ List.length (live st) = 65 /\ refused st = true.
Proof.
  split.
  - apply (grants_dec _ _ (fun s => negb (slot_eqb s (sc ~> "E")))); [intros k s H; exact H|vm_compute; reflexivity].
  - apply sum_ret_ok. vm_compute. reflexivity.
Qed.
Lemma codes_ex : not_quasidefinite usual = false /\
  exists st z, exec (only_refuses ["C"]) usual setup start = Ret z st /\ z = LINSYS_INIT.
Proof.
  split; [reflexivity|].
  assert (H : exists n, sum_ret (exec (only_refuses ["C"]) usual setup start) = Some (LINSYS_INIT, n, true)).
  { eexists. vm_compute. reflexivity. }
  destruct H as [n H]. apply sum_ret_ok in H as [st [H _]]. exists st, LINSYS_INIT. auto.
Qed.

(** Refuses the row index array of the reduced constraint matrix on one occasion. *)
Definition picky (k : nat) (s : slot) : bool := negb (slot_eqb s ["rridx"] && Nat.leb 192 k && Nat.ltb k 198).
Definition chain : option (list (Z * bool)) :=
  match exec picky usual setup start with
  | Ret z st => match exec picky usual solve st with
    | Ret z1 st1 => match exec picky usual solve st1 with
      | Ret z2 st2 => match exec picky usual solve st2 with
        | Ret z3 st3 => Some [(z, refused st); (z1, refused st1); (z2, refused st2); (z3, refused st3)]
        | _ => None end | _ => None end | _ => None end | _ => None end.
Lemma chain_ok l : chain = Some l -> exists st st1 st2 st3 z z1 z2 z3,
  exec picky usual setup start = Ret z st /\ exec picky usual solve st = Ret z1 st1 /\
  exec picky usual solve st1 = Ret z2 st2 /\ exec picky usual solve st2 = Ret z3 st3 /\
  l = [(z, refused st); (z1, refused st1); (z2, refused st2); (z3, refused st3)].
Proof.
  unfold chain. destruct (exec picky usual setup start) as [|z st|]; intro H; try discriminate H.
  destruct (exec picky usual solve st) as [|z1 st1|] eqn:E1; try discriminate H.
  destruct (exec picky usual solve st1) as [|z2 st2|] eqn:E2; try discriminate H.
  destruct (exec picky usual solve st2) as [|z3 st3|] eqn:E3; try discriminate H. injection H as <-.
  exists st, st1, st2, st3, z, z1, z2, z3. auto.
Qed.
Lemma chain_val : chain = Some [(0%Z, false); (0%Z, false); (MEM, true); (0%Z, true)].
Proof. vm_compute. reflexivity. Qed.
Lemma sessions_ex : grants picky (setup_unchecked ++ polish_unchecked) /\ same_config usual usual /\
  exists st st1 st2 st3, exec picky usual setup start = Ret 0 st /\ exec picky usual solve st = Ret 0 st1 /\
    exec picky usual solve st1 = Ret MEM st2 /\ exec picky usual solve st2 = Ret 0 st3 /\ refused st1 = false /\ refused st2 = true.
Proof.
  split; [|split; [apply same_refl|]].
  - apply (grants_dec _ _ (fun s => negb (slot_eqb s ["rridx"]))); [|vm_compute; reflexivity].
    intros k s H. unfold picky. destruct (slot_eqb s ["rridx"]); [discriminate H|reflexivity].
  - destruct (chain_ok _ chain_val) as [st [st1 [st2 [st3 [z [z1 [z2 [z3 [A [B [C [D L]]]]]]]]]]]].
    injection L as L1 L2 L3 L4 L5 L6 L7 L8. subst z z1 z2 z3. exists st, st1, st2, st3.
    rewrite <- L4, <- L6. auto 10.
Qed.
