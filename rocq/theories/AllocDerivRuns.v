(** Proofs about the memory of the derivative functions: the checker of AllocCheck.v run on them. *)
From Coq Require Import ZArith List Bool String Arith Lia.
From Verif Require Import Alloc AllocCheck AllocSpec AllocFacts AllocRuns AllocDeriv AllocDerivSpec.
Import ListNotations.
Local Open Scope string_scope.
Local Open Scope list_scope.

(** Requests assumed to be granted. *)
Definition g0 (s : slot) : bool := memb s setup_unchecked.
Definition gk (k : call) (s : slot) : bool := memb s (must_grant k).

(** Branches settled by the configuration. *)
Definition kd (a : option bool) (d e : bool) (n : string) : option bool :=
  if String.eqb n "rho_is_vec" then a else if String.eqb n "allocate_solution" then Some true
  else if String.eqb n "m=0" then Some d else if String.eqb n "scaling" then Some e else None.
Lemma kd_ok fl0 fl a : same_config fl0 fl -> fl0 "allocate_solution" = true -> a = None \/ a = Some (fl0 "rho_is_vec") ->
  forall n b, kd a (fl0 "m=0") (fl0 "scaling") n = Some b -> fl n = b.
Proof.
  intros S AS HA n b H. unfold kd in H.
  assert (Q : forall m, In m config -> fl m = fl0 m) by exact S. unfold config in Q.
  destruct (String.eqb n "rho_is_vec") eqn:E1.
  { apply String.eqb_eq in E1. subst n. destruct HA as [-> | ->]; [discriminate H|]. injection H as <-. apply Q; simpl; auto. }
  destruct (String.eqb n "allocate_solution") eqn:E2.
  { apply String.eqb_eq in E2. subst n. injection H as <-. refine (eq_trans (Q "allocate_solution" _) AS). simpl; auto. }
  destruct (String.eqb n "m=0") eqn:E3; [apply String.eqb_eq in E3; subst n; injection H as <-; apply Q; simpl; auto|].
  destruct (String.eqb n "scaling") eqn:E4; [apply String.eqb_eq in E4; subst n; injection H as <-; apply Q; simpl; auto|].
  discriminate H.
Qed.

(** Those settled for one call by the constraints there are. *)
Definition kn2 (f : string -> option bool) (x y : bool) (z : option bool) (n : string) : option bool :=
  if String.eqb n "n_ineq_l=0" then Some x else if String.eqb n "n_ineq_u=0" then Some y
  else if String.eqb n "n_eq=0" then z else f n.
Lemma kn2_ok f fl z : (forall n b, f n = Some b -> fl n = b) -> z = None \/ z = Some (fl "n_eq=0") ->
  forall n b, kn2 f (fl "n_ineq_l=0") (fl "n_ineq_u=0") z n = Some b -> fl n = b.
Proof.
  intros F HZ n b H. unfold kn2 in H.
  destruct (String.eqb n "n_ineq_l=0") eqn:E1; [apply String.eqb_eq in E1; subst n; injection H as <-; reflexivity|].
  destruct (String.eqb n "n_ineq_u=0") eqn:E2; [apply String.eqb_eq in E2; subst n; injection H as <-; reflexivity|].
  destruct (String.eqb n "n_eq=0") eqn:E3.
  { apply String.eqb_eq in E3. subst n. destruct HZ as [-> | ->]; [discriminate H|]. injection H as <-. reflexivity. }
  auto.
Qed.

(** Suspects are of no interest here. *)
Definition loose (a : ast) : ast := AS (tab a) [[]].
Definition within2 (a b : ast) : bool := within (loose a) b.
Lemma within2_ok a b st : within2 a b = true -> rel a st -> rel b st.
Proof.
  intros W R. apply (within_ok (loose a) b st W). split; [exact (rl_own a st R)|exact (rl_tab a st R)|].
  intros _. exists []. split; [left; reflexivity|left; reflexivity].
Qed.

(** Only the solver's own pointers whose value is defined, and others if they may be live. *)
Definition trim (a : ast) : ast :=
  AS (filter (fun u => String.eqb (root (fst u)) "solver" && negb (cw (snd u)) || cl (snd u)) (tab a)) [[]].
Definition bools := [false; true].

(** osqp_setup from the start, for both kinds of step size, and the states it can succeed in. *)
Definition rests (d e : bool) : list (option rep) := map (fun v => check g0 (kd (Some v) d e) setup a0) bools.
Definition resting (l : list (option rep)) : ast :=
  trim (fold_left (fun a r => ajoin a (first_zero r)) (tl l) (first_zero (hd None l))).
Definition start_in (A : ast) (r : option rep) : bool :=
  match r with
  | Some r => nil_ (bad r) && forallb (fun u => negb (fst u =? 0)%Z || within2 (snd u) A) (rts r)
  | None => false
  end.

Definition audit_deriv (d e : bool) (A : ast) : bool :=
  let fa := kd None d e in
  let q z a := (z =? 0)%Z && within2 a A in
  audit [] (gk GetMat) fa q get_mat A && audit [] (gk GetVec) fa q get_vec A &&
  (if d then audit [] (gk Compute) (kn2 fa true true (Some true)) q compute A
   else forallb (fun x => forallb (fun y => audit [] (gk Compute) (kn2 fa x y None) q compute A) bools) bools).
Definition audit_rest (d e : bool) (l : list (option rep)) (A : ast) : bool :=
  forallb (start_in A) l && audit [] (gk Solve) (kd None d e) (fun _ a => within2 a A) solve A && audit_clean A.
Definition audit_both (d e : bool) (l : list (option rep)) (A : ast) : bool := audit_rest d e l A && audit_deriv d e A.
Strategy expand [audit_deriv audit_rest audit_both start_in].
Lemma audit_all d e : (fun l => audit_both d e l (resting l)) (rests d e) = true.
Proof. destruct d, e; vm_compute; reflexivity. Qed.
Lemma audit_split2 d e : exists A, audit_deriv d e A = true /\ audit_rest d e (rests d e) A = true.
Proof. exists (resting (rests d e)). apply and_comm. exact (andb_prop _ _ (audit_all d e)). Qed.

Lemma bools_in b : In b bools.
Proof. destruct b; simpl; auto. Qed.

(** One call of a derivative function from a resting state. *)
Lemma deriv_step fl0 e A st :
  audit_deriv (fl0 "m=0") (fl0 "scaling") A = true ->
  fl0 "allocate_solution" = true -> served fl0 e -> is_solve (what e) = false ->
  rel A st -> exists st', exec (answers e) (branches e) (prog (what e)) st = Ret 0 st' /\ rel A st'.
Proof.
  intros H AS [SC [SZ G]] K R. destruct e as [k o fl]. cbn [what answers branches] in *.
  assert (GP : forall n s, gk k s = true -> o n s = true) by (intros k' s M; apply G, memb_spec, M).
  pose proof (kd_ok fl0 fl None SC AS (or_introl eq_refl)) as KN.
  unfold audit_deriv in H. cbv zeta in H. apply andb_prop in H as [H H3]. apply andb_prop in H as [H1 H2].
  assert (X : forall c fa, audit [] (gk k) fa (fun z a => (z =? 0)%Z && within2 a A) c A = true ->
              (forall n b, fa n = Some b -> fl n = b) -> exists st', exec o fl c st = Ret 0 st' /\ rel A st').
  { intros c fa E F. pose proof (audit_ok _ _ _ _ _ _ o fl st E GP F R) as S.
    destruct (exec o fl c st) as [s1|z s1|b]; [destruct S| |destruct S].
    destruct S as [a [Q R1]]. apply andb_prop in Q as [Q1 Q2]. apply Z.eqb_eq in Q1. subst z.
    exists s1. split; [reflexivity|exact (within2_ok a A s1 Q2 R1)]. }
  destruct k; [discriminate K| |exact (X _ _ H1 KN)|exact (X _ _ H2 KN)].
  destruct (fl0 "m=0") eqn:M; cbv iota in H3.
  - assert (M1 : fl "m=0" = true) by (refine (eq_trans (SC "m=0" _) M); simpl; auto).
    destruct (SZ M1) as [Z1 [Z2 Z3]].
    pose proof (kn2_ok _ fl (Some (fl "n_eq=0")) KN (or_intror eq_refl)) as KK. rewrite Z1, Z2, Z3 in KK.
    exact (X _ _ H3 KK).
  - rewrite forallb_forall in H3. specialize (H3 _ (bools_in (fl "n_ineq_l=0"))). cbv beta in H3.
    rewrite forallb_forall in H3. specialize (H3 _ (bools_in (fl "n_ineq_u=0"))). cbv beta in H3.
    exact (X _ _ H3 (kn2_ok _ fl None KN (or_introl eq_refl))).
Qed.

Lemma solve_step fl0 o fl l A st :
  audit_rest (fl0 "m=0") (fl0 "scaling") l A = true ->
  grants o (must_grant Solve) -> fl0 "allocate_solution" = true -> same_config fl0 fl -> rel A st ->
  exists z st', exec o fl solve st = Ret z st' /\ rel A st'.
Proof.
  intros H G AS SC R.
  assert (GP : forall n s, gk Solve s = true -> o n s = true) by (intros k' s M; apply G, memb_spec, M).
  pose proof (kd_ok fl0 fl None SC AS (or_introl eq_refl)) as KN.
  unfold audit_rest in H. apply andb_prop in H as [H _]. apply andb_prop in H as [_ H].
  pose proof (audit_ok _ _ _ _ _ _ o fl st H GP KN R) as S.
  destruct (exec o fl solve st) as [s1|z s1|b]; [destruct S| |destruct S].
  destruct S as [a [Q R1]]. exists z, s1. split; [reflexivity|exact (within2_ok a A s1 Q R1)].
Qed.

Lemma in_rests v d e : In (check g0 (kd (Some v) d e) setup a0) (rests d e).
Proof. unfold rests. apply (in_map (fun v => check g0 (kd (Some v) d e) setup a0)). apply bools_in. Qed.

Lemma start_step fa A o fl st z :
  start_in A (check g0 fa setup a0) = true ->
  (forall k s, g0 s = true -> o k s = true) -> (forall n b, fa n = Some b -> fl n = b) ->
  exec o fl setup start = Ret z st -> z = 0%Z -> rel A st.
Proof.
  unfold start_in. intros H GP KN E Z0. destruct (check g0 fa setup a0) as [r|] eqn:C; [|discriminate].
  apply andb_prop in H as [H1 H2].
  pose proof (check_sound g0 fa o fl GP KN setup a0 r start C rel_start) as K. rewrite E in K.
  destruct K as [a1 [I R1]]. rewrite forallb_forall in H2. specialize (H2 _ I). cbn [fst snd] in H2.
  subst z. cbn [negb Z.eqb orb] in H2. exact (within2_ok a1 A st H2 R1).
Qed.

Lemma setup_step o fl A st :
  audit_rest (fl "m=0") (fl "scaling") (rests (fl "m=0") (fl "scaling")) A = true ->
  grants o setup_unchecked -> fl "allocate_solution" = true -> exec o fl setup start = Ret 0 st -> rel A st.
Proof.
  intros H G AS E.
  assert (GP : forall k s, g0 s = true -> o k s = true) by (intros k' s M; apply G, memb_spec, M).
  unfold audit_rest in H. apply andb_prop in H as [H _]. apply andb_prop in H as [H _].
  rewrite forallb_forall in H. specialize (H _ (in_rests (fl "rho_is_vec") _ _)).
  exact (start_step _ A o fl st 0%Z H GP (kd_ok fl fl _ (same_refl fl) AS (or_intror eq_refl)) E eq_refl).
Qed.

Lemma deriv_sessions o fl calls st :
  grants o setup_unchecked -> fl "allocate_solution" = true -> exec o fl setup start = Ret 0 st ->
  (forall e, In e calls -> served fl e) ->
  exists st', calls_ calls st = Go st' /\ (forall o' fl', cleans_up o' fl' st') /\
    forall e, served fl e -> is_solve (what e) = false ->
      exists st'', exec (answers e) (branches e) (prog (what e)) st' = Ret 0 st''.
Proof.
  intros G AS E SV. destruct (audit_split2 (fl "m=0") (fl "scaling")) as [A [HD HR]].
  pose proof (setup_step o fl A st HR G AS E) as R. clear E.
  assert (HC : audit_clean A = true) by (unfold audit_rest in HR; apply andb_prop in HR; apply HR).
  revert st R. induction calls as [|e calls IH]; intros st R.
  - exists st. split; [reflexivity|]. split; [intros o' fl'; exact (audit_clean_ok o' fl' A st HC R)|].
    intros e S K. destruct (deriv_step fl e A st HD AS S K R) as [s2 [E2 _]]. eauto.
  - pose proof (SV e (or_introl eq_refl)) as S.
    assert (X : exists z s1, exec (answers e) (branches e) (prog (what e)) st = Ret z s1 /\ rel A s1).
    { destruct (is_solve (what e)) eqn:K.
      - destruct e as [k o1 f]. destruct S as [SF [_ GS]]. cbn [what answers branches] in *.
        destruct k; try discriminate K. exact (solve_step fl o1 f _ A st HR GS AS SF R).
      - destruct (deriv_step fl e A st HD AS S K R) as [s1 X]. exists 0%Z, s1. exact X. }
    destruct X as [z [s1 [E1 R1]]]. cbn [calls_]. rewrite E1. apply IH; [|exact R1].
    intros e' I. apply SV. right. exact I.
Qed.

(** * Witnesses *)

Definition with_setup (o : nat -> slot -> bool) (f : hst -> bool) : bool :=
  match exec o usual setup start with Ret 0 st => f st | _ => false end.
Lemma with_setup_ok o f : with_setup o f = true -> exists st, exec o usual setup start = Ret 0 st /\ f st = true.
Proof. unfold with_setup. destruct (exec o usual setup start) as [|[| |] st|]; intro H; try discriminate H. eauto. Qed.

Lemma crash_comp_all : with_setup all_granted (fun st =>
  forallb (fun u : slot * slot => is_bad (snd u) (exec (only_refuses (fst u)) usual compute st)) compute_crashes) = true.
Proof. vm_compute. reflexivity. Qed.
Lemma crash_comp s t : In (s, t) compute_crashes -> exists st,
  exec all_granted usual setup start = Ret 0 st /\ exec (only_refuses s) usual compute st = Bad t.
Proof.
  intro I. destruct (with_setup_ok _ _ crash_comp_all) as [st [E H]]. exists st. split; [exact E|].
  rewrite forallb_forall in H. specialize (H _ I). cbn [fst snd] in H. apply is_bad_ok. exact H.
Qed.

(** osqp_setup does not check derivative_data->rhs (src/osqp_api.c:615). *)
Lemma crash_rhs_all : forallb (fun s => with_setup (only_refuses s) (fun st => is_bad (dd ~> "rhs") (exec all_granted usual compute st)))
  [dd ~> "rhs"; dd ~> "rhs" ~> "values"] = true.
Proof. vm_compute. reflexivity. Qed.
Lemma crash_rhs s : In s [dd ~> "rhs"; dd ~> "rhs" ~> "values"] -> exists st,
  exec (only_refuses s) usual setup start = Ret 0 st /\ exec all_granted usual compute st = Bad (dd ~> "rhs").
Proof.
  intro I. pose proof crash_rhs_all as H. rewrite forallb_forall in H. specialize (H s I).
  apply with_setup_ok in H as [st [E B]]. exists st. split; [exact E|]. apply is_bad_ok. exact B.
Qed.

Definition quiet (n : nat) (x : out) : bool := match x with Ret 0 st => refused st && Nat.eqb (List.length (live st)) n | _ => false end.
Lemma quiet_ok n x : quiet n x = true -> exists st, x = Ret 0 st /\ refused st = true /\ List.length (live st) = n.
Proof.
  unfold quiet. destruct x as [|[| |] st|]; intro H; try discriminate H.
  apply andb_prop in H as [H1 H2]. apply Nat.eqb_eq in H2. eauto.
Qed.
Lemma silent_comp_all :
  with_setup all_granted (fun st => negb (refused st) &&
    forallb (fun s => quiet (List.length (live st)) (exec (only_refuses s) usual compute st)) compute_silent) = true.
Proof. vm_compute. reflexivity. Qed.
Lemma silent_comp s : In s compute_silent -> exists st st',
  exec all_granted usual setup start = Ret 0 st /\ refused st = false /\
  exec (only_refuses s) usual compute st = Ret 0 st' /\ refused st' = true /\ List.length (live st') = List.length (live st).
Proof.
  intro I. destruct (with_setup_ok _ _ silent_comp_all) as [st [E H]]. apply andb_prop in H as [H0 H].
  rewrite forallb_forall in H. specialize (H s I). apply quiet_ok in H as [st' [E' [R L]]].
  exists st, st'. apply negb_true_iff in H0. auto.
Qed.

(** * Examples *)

(** A solve with polishing, a derivative refused the work array of the minimum degree ordering, a reading of
    the gradients, and a derivative with all it asks for. *)
Definition demo : list event :=
  [ Event Solve all_granted usual; Event Compute (only_refuses ["S"]) usual; Event GetMat all_granted usual;
    Event GetVec all_granted usual; Event Compute all_granted usual ].
Lemma demo_ex : grants all_granted setup_unchecked /\ usual "allocate_solution" = true /\
  (exists st, exec all_granted usual setup start = Ret 0 st) /\ (forall e, In e demo -> served usual e).
Proof.
  split; [intros k s _; reflexivity|]. split; [reflexivity|].
  split; [apply setup_generous; reflexivity|].
  intros e I. assert (B : branches e = usual) by (destruct I as [<-|[<-|[<-|[<-|[<-|[]]]]]]; reflexivity).
  unfold served. rewrite B. split; [apply same_refl|]. split; [intro H; discriminate H|].
  destruct I as [<-|[<-|[<-|[<-|[<-|[]]]]]]; try (intros k s _; reflexivity).
  apply (grants_dec _ _ (fun s => negb (slot_eqb s ["S"]))); [intros k s H; exact H|vm_compute; reflexivity].
Qed.
