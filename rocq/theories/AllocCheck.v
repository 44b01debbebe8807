(** A checker for the memory programs of Alloc.v, and its soundness.

    For every pointer the checker keeps the set of things it may hold (NULL,
    indeterminate, a live block, a freed block).  It runs a program once, joining
    branches, and reports the states it may end in and the pointers that may be
    misused.  [check_sound]: whatever the allocator answers and whatever way the
    undecided branches go, execution stays within the report. *)
From Coq Require Import ZArith List Bool String Arith Lia.
From Verif Require Import Alloc.
Import ListNotations.
Local Open Scope string_scope.
Local Open Scope list_scope.

(** * Abstract states *)

(** May be NULL, indeterminate, live, freed.  Proof device, no counterpart in /repo. *)
Record cls := Cls { cn : bool; cw : bool; cl : bool; cd : bool }.
Definition cN := Cls true false false false.
Definition cW := Cls false true false false.
Definition cL := Cls false false true false.
(** Not live: what is assumed of every pointer not listed. *)
Definition cX := Cls true true false true.
Definition cjoin (a b : cls) := Cls (cn a || cn b) (cw a || cw b) (cl a || cl b) (cd a || cd b).

(** Known pointers, and the suspects: if a request was refused, one of these is NULL.
    The empty path stands for "no one in particular". *)
Record ast := AS { tab : list (slot * cls); sus : list slot }.

Fixpoint look (l : list (slot * cls)) (s : slot) : cls :=
  match l with [] => cX | (t, c) :: r => if slot_eqb s t then c else look r s end.
Fixpoint put (l : list (slot * cls)) (s : slot) (c : cls) : list (slot * cls) :=
  match l with
  | [] => [(s, c)]
  | (t, d) :: r => if slot_eqb s t then (t, c) :: r else (t, d) :: put r s c
  end.
Definition aget (a : ast) (s : slot) := look (tab a) s.
Definition aset (a : ast) (s : slot) (c : cls) := AS (put (tab a) s c) (sus a).

Definition memb (s : slot) (l : list slot) := existsb (slot_eqb s) l.
Definition without (s : slot) (l : list slot) := filter (fun t => negb (slot_eqb s t)) l.

Definition haskey (l : list (slot * cls)) (s : slot) : bool := existsb (fun u => slot_eqb s (fst u)) l.
Definition tmap (h : slot -> cls -> cls) (l : list (slot * cls)) : list (slot * cls) :=
  map (fun u => (fst u, h (fst u) (snd u))) l.
Definition tfilter (q : slot -> bool) (l : list (slot * cls)) : list (slot * cls) :=
  filter (fun u => q (fst u)) l.

(** The pointer may be live: it and all it is reached through. *)
Fixpoint pl (a : ast) (s : slot) : bool :=
  match s with
  | [] => true
  | _ :: p => cl (aget a s) && pl a p
  end.

Definition cls_eqb (a b : cls) : bool :=
  Bool.eqb (cn a) (cn b) && Bool.eqb (cw a) (cw b) && Bool.eqb (cl a) (cl b) && Bool.eqb (cd a) (cd b).

(** A field counts only where the struct it is in may be live. *)
Definition entry (a b : ast) (s : slot) (c d : cls) : cls :=
  if cls_eqb c d then c
  else if pl a (tl s) then (if pl b (tl s) then cjoin c d else c) else d.

Fixpoint zipj (e : slot -> cls -> cls -> cls) (l k : list (slot * cls)) : list (slot * cls) :=
  match l, k with
  | (s, c) :: l', (t, d) :: k' =>
      if slot_eqb s t then (s, e s c d) :: zipj e l' k'
      else tmap (fun s c => e s c (look k s)) l ++
           tmap (fun s c => e s (look l s) c) (tfilter (fun s => negb (haskey l s)) k)
  | _, _ => tmap (fun s c => e s c (look k s)) l ++
            tmap (fun s c => e s (look l s) c) (tfilter (fun s => negb (haskey l s)) k)
  end.

(** Union. *)
Definition ajoin (a b : ast) : ast :=
  AS (zipj (entry a b) (tab a) (tab b))
     (sus a ++ filter (fun s => negb (memb s (sus a))) (sus b)).
Definition ojoin (a b : option ast) : option ast :=
  match a, b with Some x, Some y => Some (ajoin x y) | Some x, None => Some x | None, y => y end.

Definition kid (t s : slot) : bool := match t with [] => false | _ :: p => slot_eqb p s end.

(** No field of *s, except those listed, can be live. *)
Definition bare (a : ast) (s : slot) (except : list slot) : bool :=
  forallb (fun u => negb (kid (fst u) s) || negb (cl (snd u)) || memb (fst u) except) (tab a).

(** The fields of a new struct which are not listed are anything but live. *)
Definition fresh (a : ast) (s : slot) : ast :=
  AS (tmap (fun t c => if kid t s then cX else c) (tab a)) (sus a).
Fixpoint freshes (a : ast) (l : list slot) : ast :=
  match l with [] => a | s :: r => freshes (fresh a s) r end.

(** * The checker *)

Record rep := Rep { go : option ast; rts : list (Z * ast); bad : list slot }.

Definition stop (b : list slot) := Rep None [] b.
Definition cont (a : ast) (b : list slot) := Rep (Some a) [] b.

(** The dereferences of the access path. *)
Fixpoint pathb (a : ast) (s : slot) : list slot :=
  match s with
  | [] => [[]]
  | _ :: p => match p with
              | [] => []
              | _ => let c := aget a p in
                     pathb a p ++ (if cn c || cw c || cd c then [p] else [])
              end
  end.
Definition path (a : ast) (s : slot) : option ast * list slot :=
  (match s with
   | [] => None
   | _ :: p => match p with
               | [] => Some a
               | _ => if cl (aget a p) then Some (aset a p cL) else None
               end
   end, pathb a s).

Definition on (r : option ast * list slot) (k : ast -> option rep) : option rep :=
  match r with
  | (None, b) => Some (stop b)
  | (Some a, b) => match k a with
                   | Some r' => Some (Rep (go r') (rts r') (b ++ bad r'))
                   | None => None
                   end
  end.

Fixpoint putk (a : ast) (p : slot) (kids : list string) (v : string -> cls) : ast :=
  match kids with [] => a | f :: r => putk (aset a (p ~> f) (v f)) p r v end.

(** Merge returns carrying the same value, except that those with and without a
    workspace are kept apart (osqp_cleanup distinguishes them). *)
Fixpoint radd (z : Z) (a : ast) (l : list (Z * ast)) : list (Z * ast) :=
  match l with
  | [] => [(z, a)]
  | (y, b) :: r => if (z =? y)%Z && cls_eqb (aget a wk) (aget b wk) then (y, ajoin b a) :: r else (y, b) :: radd z a r
  end.
Definition rapp (l k : list (Z * ast)) : list (Z * ast) := fold_left (fun acc '(z, a) => radd z a acc) k l.

Definition both (r1 r2 : rep) : rep :=
  Rep (ojoin (go r1) (go r2)) (rapp (rts r1) (rts r2)) (bad r1 ++ bad r2).

Definition kidslots (p : slot) (kids : list string) := map (fun f => p ~> f) kids.
Definition disj (l k : list slot) := forallb (fun s => negb (memb s k)) l.

(** These pointers are overwritten. *)
Definition spare (l k : list slot) : list slot := if disj l k then k else [[]].

(** The variable a path starts from; a path that is only a variable. *)
Definition root (s : slot) : string := last s "".
Definition local (s : slot) : bool := match s with [_] => true | _ => false end.

(** Suspects after s is set to NULL: s alone if that is likely because of them. *)
Definition blamed (s : slot) (l : list slot) : list slot :=
  if existsb (fun t => kid t s || local t) l then [s] else l.

Section Run.
Variable g : slot -> bool.              (* requests for these are granted *)
Variable fa : string -> option bool.    (* branches whose outcome is known *)

Definition a_alloc (a : ast) (z : bool) (s : slot) (kids : list string) : option rep :=
  if negb (cl (aget a s))
  then
    let ok := let b := putk (fresh (aset a s cL) s) s kids (fun _ => if z then cN else cW) in
              AS (tab b) (spare (s :: kidslots s kids) (sus a)) in
    if g s then Some (cont ok [])
    else Some (cont (ajoin ok (let b := aset a s cN in AS (tab b) (s :: sus b))) [])
  else None.

Definition a_free (a : ast) (s : slot) : option rep :=
  let c := aget a s in
  let b := if cw c || cd c then [s] else [] in
  if cl c
  then if bare a s [] then Some (cont (aset a s (Cls (cn c) false false true)) b) else None
  else if cn c then Some (cont (aset a s cN) b) else Some (stop b).

Definition a_move (a : ast) (d s : slot) (kids : list string) : option rep :=
  let c := aget a s in
  let ds := d :: kidslots d kids in
  if negb (cl (aget a d)) && bare a s (kidslots s kids) &&
     forallb (fun t => bare a t []) (kidslots s kids) && local s && negb (String.eqb (root d) (root s))
  then
    let b := if cw c then [s] else [] in
    let c' := Cls (cn c) false (cl c) (cd c) in
    let a1 := putk (freshes (aset a d c') ds) d kids (fun f => aget a (s ~> f)) in
    let a2 := putk (aset a1 s cW) s kids (fun _ => cW) in
    Some (cont (AS (tab a2) (spare (kidslots s kids) (map (fun t => if slot_eqb t s then d else t)
                                                          (spare ds (sus a))))) b)
  else None.

Fixpoint check (c : cmd) (a : ast) : option rep :=
  match c with
  | Skip => Some (cont a [])
  | Seq c1 c2 =>
      match check c1 a with
      | Some r1 =>
          match go r1 with
          | None => Some r1
          | Some a1 => match check c2 a1 with
                       | Some r2 => Some (Rep (go r2) (rapp (rts r1) (rts r2)) (bad r1 ++ bad r2))
                       | None => None
                       end
          end
      | None => None
      end
  | Alloc z s kids => on (path a s) (fun a => a_alloc a z s kids)
  | SetNull s => on (path a s) (fun a =>
      if negb (cl (aget a s))
      then Some (cont (let b := aset a s cN in AS (tab b) (blamed s (sus b))) [])
      else None)
  | Use s => on (path a s) (fun a =>
      let c := aget a s in
      let b := if cn c || cw c || cd c then [s] else [] in
      if cl c then Some (cont (let b := aset a s cL in AS (tab b) (without s (sus b))) b) else Some (stop b))
  | Read s => on (path a s) (fun a =>
      let c := aget a s in
      Some (cont (aset a s (Cls (cn c) false (cl c) (cd c))) (if cw c then [s] else [])))
  | Free s => on (path a s) (fun a => a_free a s)
  | Move d s kids => on (path a d) (fun a => on (path a s) (fun a => a_move a d s kids))
  | IfNull s c1 c2 => on (path a s) (fun a =>
      let c := aget a s in
      let b := if cw c || cd c then [s] else [] in
      match (if cn c then check c1 (aset a s cN) else Some (stop [])),
            (if cl c then check c2 (let b := aset a s cL in AS (tab b) (without s (sus b)))
             else Some (stop [])) with
      | Some r1, Some r2 => let r := both r1 r2 in Some (Rep (go r) (rts r) (b ++ bad r))
      | _, _ => None
      end)
  | Flag f c1 c2 =>
      match fa f with
      | Some true => check c1 a
      | Some false => check c2 a
      | None => match check c1 a, check c2 a with Some r1, Some r2 => Some (both r1 r2) | _, _ => None end
      end
  | Return z => Some (Rep None [(z, a)] [])
  | Call c1 k =>
      match check c1 a with
      | None => None
      | Some r1 =>
          let l := match go r1 with Some a1 => radd 0%Z a1 (rts r1) | None => rts r1 end in
          fold_left (fun acc '(z, a1) =>
            match acc with
            | None => None
            | Some r => match check (k z) a1 with
                        | Some r2 => Some (both r r2)
                        | None => None
                        end
            end) l (Some (stop (bad r1)))
      end
  end.
End Run.

(** * What an abstract state says *)

(** What a pointer holds, given the blocks allocated. *)
Definition may (c : cls) (st : hst) (s : slot) : Prop :=
  match mem st s with
  | VNull => cn c = true
  | VWild => cw c = true
  | VAt b => if existsb (Nat.eqb b) (live st) then cl c = true else cd c = true
  end.

(** The struct the pointer is a field of is live. *)
Definition inlive (st : hst) (s : slot) : Prop :=
  match s with _ :: ((_ :: _) as p) => lives st p = true | _ => True end.

(** Ownership: no block has two owners, every block has one, the owner of a field's
    block owns the struct the field is in; block numbers are below the request count. *)
Record own (st : hst) : Prop := Own {
  ow_one : forall s t b, mem st s = VAt b -> mem st t = VAt b -> In b (live st) -> s = t;
  ow_all : forall b, In b (live st) -> exists s, mem st s = VAt b;
  ow_par : forall f p, p <> [] -> lives st (p ~> f) = true -> lives st p = true;
  ow_new : forall s b, mem st s = VAt b -> b < req st }.

Definition sus_ok (l : list slot) (st : hst) : Prop :=
  refused st = true -> exists s, In s l /\ (s = [] \/ mem st s = VNull).

Record rel (a : ast) (st : hst) : Prop := Rel {
  rl_own : own st;
  rl_tab : forall s, inlive st s -> may (aget a s) st s;
  rl_sus : sus_ok (sus a) st }.

(** * Basic facts *)

Lemma seqb_spec : forall a b, slot_eqb a b = true <-> a = b.
Proof.
  induction a as [|x a IH]; destruct b as [|y b]; simpl; split; intro H; try discriminate; auto.
  - apply andb_prop in H as [H1 H2]. apply String.eqb_eq in H1. apply IH in H2. congruence.
  - injection H as -> ->. rewrite String.eqb_refl. apply IH. reflexivity.
Qed.
Lemma seqb_refl a : slot_eqb a a = true.
Proof. apply seqb_spec; reflexivity. Qed.
Lemma seqb_false a b : slot_eqb a b = false <-> a <> b.
Proof.
  destruct (slot_eqb a b) eqn:E; split; intro H; auto; try discriminate.
  - apply seqb_spec in E. contradiction.
  - intro X. apply seqb_spec in X. congruence.
Qed.
Lemma seqb_sym a b : slot_eqb a b = slot_eqb b a.
Proof.
  destruct (slot_eqb b a) eqn:E.
  - apply seqb_spec in E. subst. apply seqb_refl.
  - apply seqb_false in E. apply seqb_false. congruence.
Qed.

Lemma look_put l s c t : look (put l s c) t = if slot_eqb t s then c else look l t.
Proof.
  induction l as [|[u d] l IH]; simpl.
  - reflexivity.
  - destruct (slot_eqb s u) eqn:E; simpl.
    + apply seqb_spec in E. subst u. destruct (slot_eqb t s) eqn:F; reflexivity.
    + rewrite IH. destruct (slot_eqb t u) eqn:F; auto.
      destruct (slot_eqb t s) eqn:G; auto.
      apply seqb_spec in F. apply seqb_spec in G. subst. rewrite seqb_refl in E. discriminate.
Qed.
Lemma aget_aset a s c t : aget (aset a s c) t = if slot_eqb t s then c else aget a t.
Proof. apply look_put. Qed.

Lemma memb_spec s l : memb s l = true <-> In s l.
Proof.
  unfold memb. rewrite existsb_exists. split.
  - intros [x [H1 H2]]. apply seqb_spec in H2. subst. exact H1.
  - intro H. exists s. split; auto. apply seqb_refl.
Qed.

Lemma memb_false s l : memb s l = false <-> ~ In s l.
Proof. rewrite <- memb_spec. destruct (memb s l); split; intro H; auto; try discriminate. contradiction H; auto. Qed.

Lemma disj_spec l k : disj l k = true <-> (forall s, In s l -> ~ In s k).
Proof.
  unfold disj. rewrite forallb_forall. split; intros H s Hs.
  - apply memb_false. specialize (H s Hs). destruct (memb s k); auto.
  - rewrite (proj2 (memb_false s k)); auto.
Qed.

Lemma existsb_In b l : existsb (Nat.eqb b) l = true <-> In b l.
Proof.
  rewrite existsb_exists. split.
  - intros [x [H1 H2]]. apply Nat.eqb_eq in H2. subst. exact H1.
  - intro H. exists b. split; auto. apply Nat.eqb_refl.
Qed.

Lemma upd_eq m s v : upd m s v s = v.
Proof. unfold upd. rewrite seqb_refl. reflexivity. Qed.
Lemma upd_neq m s v t : t <> s -> upd m s v t = m t.
Proof. intro H. unfold upd. apply seqb_false in H. rewrite H. reflexivity. Qed.

Lemma updk_other m p kids v t : ~ In t (kidslots p kids) -> updk m p kids v t = m t.
Proof.
  revert m. induction kids as [|f r IH]; simpl; intros m H; auto.
  rewrite IH; [|tauto]. apply upd_neq. intro X. apply H. left. congruence.
Qed.
Lemma updk_in m p kids v f : In f kids -> updk m p kids v (p ~> f) = v f.
Proof.
  revert m. induction kids as [|e r IH]; simpl; intros m H; [contradiction|].
  destruct (in_dec string_dec f r) as [I|I]; [apply IH; exact I|].
  destruct H as [->|H]; [|contradiction].
  rewrite updk_other.
  - apply upd_eq.
  - intro X. apply in_map_iff in X as [g0 [X1 X2]]. injection X1 as ->. contradiction.
Qed.
Lemma putk_tab a p kids v t :
  aget (putk a p kids v) t =
  match t with
  | f :: q => if slot_eqb q p && (if in_dec string_dec f kids then true else false) then v f else aget a t
  | [] => aget a t
  end.
Proof.
  revert a. induction kids as [|e r IH]; simpl; intro a.
  - destruct t; auto. rewrite andb_false_r. reflexivity.
  - rewrite IH. destruct t as [|f q]; [rewrite aget_aset; reflexivity|].
    rewrite aget_aset. simpl.
    destruct (slot_eqb q p) eqn:Q; simpl.
    + destruct (in_dec string_dec f r) as [I|I].
      * destruct (string_dec e f); reflexivity.
      * destruct (string_dec e f) as [->|N].
        -- rewrite String.eqb_refl. reflexivity.
        -- rewrite andb_true_r. apply not_eq_sym in N. apply String.eqb_neq in N. rewrite N. reflexivity.
    + rewrite andb_false_r. reflexivity.
Qed.
Lemma putk_sus a p kids v : sus (putk a p kids v) = sus a.
Proof. revert a. induction kids as [|f r IH]; simpl; intro a; auto. rewrite IH. reflexivity. Qed.

Lemma aget_putk_in a p kids v f : In f kids -> aget (putk a p kids v) (p ~> f) = v f.
Proof.
  intro H. rewrite putk_tab, seqb_refl. destruct (in_dec string_dec f kids); [reflexivity|contradiction].
Qed.
Lemma aget_putk_other a p kids v t : ~ In t (kidslots p kids) -> aget (putk a p kids v) t = aget a t.
Proof.
  intro H. rewrite putk_tab. destruct t as [|f q]; auto.
  destruct (slot_eqb q p) eqn:Q; simpl; auto. apply seqb_spec in Q. subst q.
  destruct (in_dec string_dec f kids) as [I|I]; auto.
  exfalso. apply H. apply in_map_iff. exists f. auto.
Qed.

Lemma kid_in t p kids : In t (kidslots p kids) -> exists f, In f kids /\ t = p ~> f.
Proof. intro H. apply in_map_iff in H as [f [H1 H2]]. exists f. auto. Qed.

Lemma may_weaken c d st s :
  (cn c = true -> cn d = true) -> (cw c = true -> cw d = true) ->
  (cl c = true -> cl d = true) -> (cd c = true -> cd d = true) ->
  may c st s -> may d st s.
Proof.
  intros H1 H2 H3 H4. unfold may. destruct (mem st s); auto.
  destruct (existsb (Nat.eqb b) (live st)); auto.
Qed.

Lemma may_join_l c d st s : may c st s -> may (cjoin c d) st s.
Proof. apply may_weaken; cbn; intros ->; reflexivity. Qed.
Lemma may_join_r c d st s : may d st s -> may (cjoin c d) st s.
Proof. apply may_weaken; cbn; intros ->; apply orb_true_r. Qed.

Lemma look_tmap l h s : haskey l s = true -> look (tmap h l) s = h s (look l s).
Proof.
  unfold haskey. induction l as [|[t c] l IH]; simpl; intro H; [discriminate|].
  destruct (slot_eqb s t) eqn:E; simpl in *; auto.
  apply seqb_spec in E. subst. reflexivity.
Qed.
Lemma look_out l s : haskey l s = false -> look l s = cX.
Proof.
  unfold haskey. induction l as [|[t c] l IH]; simpl; intro H; auto.
  apply orb_false_iff in H as [H1 H2]. rewrite H1. auto.
Qed.
Lemma look_app l k s : look (l ++ k) s = if haskey l s then look l s else look k s.
Proof.
  unfold haskey. induction l as [|[t c] l IH]; simpl; auto. destruct (slot_eqb s t); simpl; auto.
Qed.
Lemma keys_tmap l h s : haskey (tmap h l) s = haskey l s.
Proof. unfold haskey, tmap. induction l as [|[t c] l IH]; simpl; auto. rewrite IH. reflexivity. Qed.

Lemma look_tfilter l (q : slot -> bool) s : q s = true -> look (tfilter q l) s = look l s.
Proof.
  intro H. unfold tfilter. induction l as [|[t c] l IH]; simpl; auto.
  destruct (q t) eqn:Q; simpl.
  - rewrite IH. reflexivity.
  - destruct (slot_eqb s t) eqn:E; auto. apply seqb_spec in E. congruence.
Qed.
Lemma keys_tfilter l (q : slot -> bool) s : q s = true -> haskey (tfilter q l) s = haskey l s.
Proof.
  intro H. unfold haskey, tfilter. induction l as [|[t c] l IH]; simpl; auto.
  destruct (q t) eqn:Q; simpl.
  - rewrite IH. reflexivity.
  - rewrite IH. destruct (slot_eqb s t) eqn:E; auto. apply seqb_spec in E. congruence.
Qed.

Lemma cls_eqb_eq a b : cls_eqb a b = true -> a = b.
Proof.
  destruct a, b. unfold cls_eqb; cbn [cn cw cl cd]. intro H.
  repeat (apply andb_prop in H as [H ?]). repeat match goal with X : Bool.eqb _ _ = true |- _ => apply eqb_prop in X end.
  subst. reflexivity.
Qed.

Lemma entry_same a b s c : entry a b s c c = c.
Proof.
  unfold entry. destruct c as [x y z w]. unfold cls_eqb; cbn [cn cw cl cd].
  destruct x, y, z, w; reflexivity.
Qed.

Lemma gen_look (e : slot -> cls -> cls -> cls) l k s : (forall s c, e s c c = c) ->
  look (tmap (fun s c => e s c (look k s)) l ++
        tmap (fun s c => e s (look l s) c) (tfilter (fun s => negb (haskey l s)) k)) s
  = e s (look l s) (look k s).
Proof.
  intro Hs. rewrite look_app, keys_tmap. destruct (haskey l s) eqn:Kl.
  - rewrite look_tmap by exact Kl. reflexivity.
  - assert (Q : (fun s => negb (haskey l s)) s = true) by (cbv beta; rewrite Kl; reflexivity).
    destruct (haskey k s) eqn:Kk.
    + rewrite look_tmap.
      * rewrite (look_tfilter k _ s Q). reflexivity.
      * rewrite (keys_tfilter k _ s Q). exact Kk.
    + rewrite (look_out l s Kl), (look_out k s Kk), Hs.
      apply look_out. rewrite keys_tmap, (keys_tfilter k _ s Q). exact Kk.
Qed.

Lemma zipj_look (e : slot -> cls -> cls -> cls) : (forall s c, e s c c = c) ->
  forall l k s, look (zipj e l k) s = e s (look l s) (look k s).
Proof.
  intro Hs. induction l as [|[u c] l IH]; intros k s.
  - apply (gen_look e [] k s Hs).
  - destruct k as [|[v d] k]; [apply (gen_look e ((u, c) :: l) [] s Hs)|].
    unfold zipj; fold zipj. destruct (slot_eqb u v) eqn:E.
    + apply seqb_spec in E. subst v. simpl. destruct (slot_eqb s u) eqn:F.
      * apply seqb_spec in F. subst. reflexivity.
      * apply IH.
    + apply (gen_look e ((u, c) :: l) ((v, d) :: k) s Hs).
Qed.

Lemma aget_join a b s : aget (ajoin a b) s = entry a b s (aget a s) (aget b s).
Proof. apply zipj_look. intros. apply entry_same. Qed.

(** * Liveness along access paths *)

Lemma lives_mem st s : lives st s = true <-> exists b, mem st s = VAt b /\ In b (live st).
Proof.
  unfold lives. destruct (mem st s) as [| |b].
  - split; [discriminate|intros [b [H _]]; discriminate].
  - split; [discriminate|intros [b [H _]]; discriminate].
  - rewrite existsb_In. split.
    + intro H. exists b. auto.
    + intros [c [H1 H2]]. injection H1 as ->. exact H2.
Qed.

Lemma lives_reach st s : own st -> s <> [] -> lives st s = true -> reach st s = true.
Proof.
  intros O. induction s as [|f p IH]; intros N H; [contradiction|].
  simpl. destruct p as [|g q]; [reflexivity|].
  assert (L : lives st (g :: q) = true) by (apply (ow_par st O f); [discriminate|exact H]).
  rewrite L. apply IH; [discriminate|exact L].
Qed.

Lemma reach_inlive st s : own st -> s <> [] -> (reach st s = true <-> inlive st s).
Proof.
  intros O N. destruct s as [|f p]; [contradiction|]. simpl. destruct p as [|g q]; [tauto|].
  split; intro H.
  - apply andb_prop in H as [H _]. exact H.
  - rewrite H. apply lives_reach; auto. discriminate.
Qed.

Lemma lives_inlive st s : own st -> lives st s = true -> inlive st s.
Proof.
  intros O H. destruct s as [|f p]; simpl; auto. destruct p as [|g q]; auto.
  apply (ow_par st O f); [discriminate|exact H].
Qed.

Lemma may_cl c st s : lives st s = true -> may c st s -> cl c = true.
Proof.
  unfold lives, may. destruct (mem st s); try discriminate. intros -> H. exact H.
Qed.
Lemma may_nolive st s c : may c st s -> cl c = false -> lives st s = false.
Proof.
  intros H1 H2. destruct (lives st s) eqn:L; auto. rewrite (may_cl c st s L H1) in H2. discriminate.
Qed.
Lemma may_cX st s : lives st s = false -> may cX st s.
Proof. unfold lives, may. destruct (mem st s); auto. intros ->. reflexivity. Qed.
Lemma may_cL st s : lives st s = true -> may cL st s.
Proof. unfold lives, may. destruct (mem st s); try discriminate. intros ->. reflexivity. Qed.
Lemma may_same c st st' s :
  mem st' s = mem st s -> lives st' s = lives st s -> may c st s -> may c st' s.
Proof.
  unfold may, lives. intros -> . destruct (mem st s); auto. intros -> . auto.
Qed.

Lemma rel_pl a st s : rel a st -> lives st s = true -> pl a s = true.
Proof.
  intro R. induction s as [|f p IH]; intro H; [reflexivity|].
  cbn [pl]. rewrite (may_cl _ st _ H (rl_tab a st R _ (lives_inlive st _ (rl_own a st R) H))).
  simpl. destruct p as [|g q]; [reflexivity|].
  apply IH. apply (ow_par st (rl_own a st R) f); [discriminate|exact H].
Qed.
Lemma rel_pl_tl a st s : rel a st -> inlive st s -> pl a (tl s) = true.
Proof.
  intros R H. destruct s as [|f p]; [reflexivity|]. simpl in *. destruct p as [|g q]; [reflexivity|].
  apply (rel_pl a st); auto.
Qed.

Lemma rel_join_l a b st : rel a st -> rel (ajoin a b) st.
Proof.
  intros R. pose proof R as [H1 H2 H3]. split; auto.
  - intros s Hs. rewrite aget_join. unfold entry. rewrite (rel_pl_tl a st s R Hs).
    specialize (H2 s Hs). destruct (cls_eqb (aget a s) (aget b s)); auto.
    destruct (pl b (tl s)); auto. apply may_join_l, H2.
  - intro Rf. destruct (H3 Rf) as [s [S1 S2]]. exists s. split; auto.
    unfold ajoin; cbn [sus]. apply in_or_app. auto.
Qed.
Lemma rel_join_r a b st : rel b st -> rel (ajoin a b) st.
Proof.
  intros R. pose proof R as [H1 H2 H3]. split; auto.
  - intros s Hs. rewrite aget_join. unfold entry. rewrite (rel_pl_tl b st s R Hs).
    specialize (H2 s Hs). destruct (cls_eqb (aget a s) (aget b s)) eqn:E.
    + apply cls_eqb_eq in E. rewrite E. exact H2.
    + destruct (pl a (tl s)); auto. apply may_join_r, H2.
  - intro Rf. destruct (H3 Rf) as [s [S1 S2]]. exists s. split; auto.
    unfold ajoin; cbn [sus]. apply in_or_app.
    destruct (memb s (sus a)) eqn:M; [left; apply memb_spec; exact M|].
    right. apply filter_In. split; auto. rewrite M. reflexivity.
Qed.

Definition orel (a : option ast) (st : hst) : Prop := exists x, a = Some x /\ rel x st.
Lemma ojoin_l a b st : orel a st -> orel (ojoin a b) st.
Proof.
  intros [x [-> R]]. destruct b as [y|]; simpl; eexists; split; try reflexivity; auto. apply rel_join_l, R.
Qed.
Lemma ojoin_r a b st : orel b st -> orel (ojoin a b) st.
Proof.
  intros [x [-> R]]. destruct a as [y|]; simpl; eexists; split; try reflexivity; auto. apply rel_join_r, R.
Qed.

Definition hasr (l : list (Z * ast)) (z : Z) (st : hst) : Prop := exists a, In (z, a) l /\ rel a st.
Lemma hasr_radd_new z a l st : rel a st -> hasr (radd z a l) z st.
Proof.
  intro R. induction l as [|[y b] l IH]; simpl.
  - exists a. simpl. auto.
  - destruct ((z =? y)%Z && cls_eqb (aget a wk) (aget b wk)) eqn:E.
    + apply andb_prop in E as [E _]. apply Z.eqb_eq in E. subst y.
      exists (ajoin b a). split; [left; reflexivity|apply rel_join_r, R].
    + destruct IH as [x [I X]]. exists x. split; auto. right. exact I.
Qed.
Lemma hasr_radd_old z a l y st : hasr l y st -> hasr (radd z a l) y st.
Proof.
  intros [x [I X]]. induction l as [|[v b] l IH]; simpl in *; [contradiction|].
  destruct ((z =? v)%Z && cls_eqb (aget a wk) (aget b wk)) eqn:E.
  - destruct I as [I|I].
    + injection I as -> ->. exists (ajoin x a). split; [left; reflexivity|apply rel_join_l, X].
    + exists x. split; auto. right. exact I.
  - destruct I as [I|I].
    + injection I as -> ->. exists x. split; auto. left. reflexivity.
    + destruct (IH I) as [w [W1 W2]]. exists w. split; auto. right. exact W1.
Qed.
Lemma hasr_rapp_l l k z st : hasr l z st -> hasr (rapp l k) z st.
Proof.
  unfold rapp. revert l. induction k as [|[y b] k IH]; simpl; intros l H; auto.
  apply IH. apply hasr_radd_old, H.
Qed.
Lemma hasr_rapp_r l k z st : hasr k z st -> hasr (rapp l k) z st.
Proof.
  unfold rapp. revert l. induction k as [|[y b] k IH]; simpl; intros l [a [I R]]; [destruct I|].
  destruct I as [I|I].
  - injection I as -> ->. apply (hasr_rapp_l (radd z a l) k z st). apply hasr_radd_new, R.
  - apply IH. exists a. auto.
Qed.

(** Execution stays within the report. *)
Definition ok (r : rep) (x : out) : Prop :=
  match x with
  | Go st => orel (go r) st
  | Ret z st => hasr (rts r) z st
  | Bad s => In s (bad r)
  end.

Lemma ok_both_l r1 r2 x : ok r1 x -> ok (both r1 r2) x.
Proof.
  destruct x; simpl; intro H; [apply ojoin_l, H|apply hasr_rapp_l, H|apply in_or_app; auto].
Qed.
Lemma ok_both_r r1 r2 x : ok r2 x -> ok (both r1 r2) x.
Proof.
  destruct x; simpl; intro H; [apply ojoin_r, H|apply hasr_rapp_r, H|apply in_or_app; auto].
Qed.
Lemma ok_bad r b x : ok r x -> ok (Rep (go r) (rts r) (b ++ bad r)) x.
Proof. destruct x; simpl; auto. intro. apply in_or_app; auto. Qed.

Lemma ok_cont a b st : rel a st -> ok (cont a b) (Go st).
Proof. intro R. exists a. auto. Qed.

(** Knowing more about one pointer. *)
Lemma rel_refine a st s c : rel a st -> (inlive st s -> may c st s) -> rel (aset a s c) st.
Proof.
  intros [H1 H2 H3] M. split; auto. intros t Ht. rewrite aget_aset.
  destruct (slot_eqb t s) eqn:E; auto. apply seqb_spec in E. subst. auto.
Qed.
Lemma rel_nonnull a st s : rel a st -> mem st s <> VNull -> s <> [] ->
  rel (AS (tab a) (without s (sus a))) st.
Proof.
  intros [H1 H2 H3] N NE. split; auto. intro Rf. destruct (H3 Rf) as [t [T1 T2]].
  exists t. split; auto. unfold without; cbn [sus]. apply filter_In. split; auto.
  destruct (slot_eqb s t) eqn:E; auto. apply seqb_spec in E. subst t.
  destruct T2; contradiction.
Qed.

Lemma pathb_sound a st s : rel a st -> reach st s = false -> In (blame st s) (pathb a s).
Proof.
  intro R. pose proof (rl_own a st R) as O.
  induction s as [|f p IH]; intro H; [left; reflexivity|].
  destruct p as [|g q]; [discriminate|].
  change (reach st (f :: g :: q)) with (lives st (g :: q) && reach st (g :: q)) in H.
  change (blame st (f :: g :: q)) with (if reach st (g :: q) then g :: q else blame st (g :: q)).
  change (pathb a (f :: g :: q)) with
    (pathb a (g :: q) ++ (if cn (aget a (g :: q)) || cw (aget a (g :: q)) || cd (aget a (g :: q)) then [g :: q] else [])).
  apply in_or_app. destruct (reach st (g :: q)) eqn:Re.
  - right. rewrite andb_true_r in H.
    assert (Ip : inlive st (g :: q)) by (apply reach_inlive; auto; discriminate).
    pose proof (rl_tab a st R _ Ip) as M. unfold may in M. unfold lives in H.
    destruct (mem st (g :: q)).
    + rewrite M. left. reflexivity.
    + rewrite M, orb_true_r. left. reflexivity.
    + rewrite H in M. rewrite M, !orb_true_r. left. reflexivity.
  - left. apply IH. reflexivity.
Qed.

Lemma on_sound a st s k r x :
  rel a st -> on (path a s) k = Some r ->
  (forall a' r', rel a' st -> s <> [] -> inlive st s -> k a' = Some r' -> ok r' x) ->
  ok r (if reach st s then x else Bad (blame st s)).
Proof.
  intros R H K. pose proof (rl_own a st R) as O.
  destruct (reach st s) eqn:Re.
  - assert (NE : s <> []) by (intros ->; discriminate).
    assert (L : inlive st s) by (apply reach_inlive; auto).
    unfold path in H. destruct s as [|f p]; [contradiction|].
    destruct p as [|g q].
    + cbn [on] in H. destruct (k a) as [r'|] eqn:E; [|discriminate].
      injection H as <-. apply (ok_bad r' []). apply (K a r' R); auto.
    + assert (Lp : lives st (g :: q) = true) by exact L.
      rewrite (may_cl _ st _ Lp (rl_tab a st R _ (lives_inlive st _ O Lp))) in H.
      unfold on in H. destruct (k (aset a (g :: q) cL)) as [r'|] eqn:E; [|discriminate].
      injection H as <-. apply ok_bad. apply (K (aset a (g :: q) cL) r'); auto.
      apply rel_refine; auto. intros _. apply may_cL, Lp.
  - pose proof (pathb_sound a st s R Re) as Hb. unfold path, on in H.
    match type of H with context [match ?o with Some _ => _ | None => _ end] => destruct o as [a'|] end.
    + destruct (k a') as [r'|]; [|discriminate]. injection H as <-. simpl. apply in_or_app. left. exact Hb.
    + injection H as <-. exact Hb.
Qed.

(** * Steps *)

(** Nothing live changes. *)
Lemma own_same st st' :
  own st -> live st' = live st -> req st <= req st' ->
  (forall t, lives st t = true -> mem st' t = mem st t) ->
  (forall t, lives st' t = true -> lives st t = true) ->
  (forall t b, mem st' t = VAt b -> b < req st') -> own st'.
Proof.
  intros O HL HQ HM HB HN. split; auto.
  - intros s t b Hs Ht Hb.
    assert (Ls : lives st' s = true) by (apply lives_mem; eauto).
    assert (Lt : lives st' t = true) by (apply lives_mem; eauto).
    apply HB in Ls. apply HB in Lt. rewrite (HM s Ls) in Hs. rewrite (HM t Lt) in Ht.
    rewrite HL in Hb. exact (ow_one st O s t b Hs Ht Hb).
  - intros b Hb. rewrite HL in Hb. destruct (ow_all st O b Hb) as [s Hs]. exists s.
    rewrite HM; auto. apply lives_mem. eauto.
  - intros f p NE L. apply HB in L. apply (ow_par st O f p NE) in L.
    apply lives_mem in L as [b [M I]]. apply lives_mem. exists b. rewrite HL, HM; auto.
    apply lives_mem. eauto.
Qed.

Lemma lives_upd_dead st s v q rf : lives st s = false -> (forall b, v <> VAt b) ->
  forall t, lives (HS (upd (mem st) s v) (live st) q rf) t = lives st t.
Proof.
  intros H V t. unfold lives; cbn [mem live]. unfold upd. destruct (slot_eqb t s) eqn:E; [|reflexivity].
  apply seqb_spec in E. subst t. unfold lives in H. rewrite H. destruct v; auto. destruct (V b); reflexivity.
Qed.

(** A pointer that is not live gets NULL. *)
Lemma rel_null a st s q rf l : rel a st -> s <> [] -> lives st s = false ->
  req st <= q -> (rf = true -> In s l) ->
  rel (AS (tab (aset a s cN)) l) (HS (upd (mem st) s VNull) (live st) q rf).
Proof.
  intros R NE D Q S. pose proof (rl_own a st R) as O.
  assert (LV := lives_upd_dead st s VNull q rf D ltac:(discriminate)).
  split.
  - apply (own_same st); auto.
    + intros t L. cbn [mem]. apply upd_neq. intros ->. congruence.
    + intros t L. rewrite LV in L. exact L.
    + intros t b. cbn [mem req]. unfold upd. destruct (slot_eqb t s); [discriminate|].
      intro M. apply (ow_new st O) in M. lia.
  - intros t Ht. change (aget (AS (tab (aset a s cN)) l) t) with (aget (aset a s cN) t). rewrite aget_aset.
    destruct (slot_eqb t s) eqn:E.
    + apply seqb_spec in E. subst t. unfold may; cbn [mem]. rewrite upd_eq. reflexivity.
    + apply (may_same _ st).
      * cbn [mem]. apply upd_neq. apply seqb_false. exact E.
      * apply LV.
      * apply (rl_tab a st R). destruct t as [|f p]; auto. destruct p as [|g p]; auto.
        simpl in *. rewrite LV in Ht. exact Ht.
  - intro Rf. cbn [refused] in Rf. exists s. split; [apply S, Rf|]. right. cbn [mem]. apply upd_eq.
Qed.

Lemma kid_spec t s : kid t s = true <-> exists f, t = s ~> f.
Proof.
  destruct t as [|f p]; simpl.
  - split; [discriminate|intros [f H]; discriminate].
  - rewrite seqb_spec. split.
    + intros ->. exists f. reflexivity.
    + intros [g H]. congruence.
Qed.

Lemma aget_fresh a s t : aget (fresh a s) t = if kid t s then cX else aget a t.
Proof.
  unfold aget, fresh; cbn [tab]. destruct (haskey (tab a) t) eqn:K.
  - rewrite look_tmap by exact K. reflexivity.
  - rewrite !look_out; auto.
    + destruct (kid t s); reflexivity.
    + rewrite keys_tmap. exact K.
Qed.
Lemma aget_freshes a l t : aget (freshes a l) t = if existsb (kid t) l then cX else aget a t.
Proof.
  revert a. induction l as [|s l IH]; simpl; intro a; auto. rewrite IH, aget_fresh.
  destruct (kid t s), (existsb (kid t) l); reflexivity.
Qed.
Lemma sus_freshes a l : sus (freshes a l) = sus a.
Proof. revert a. induction l as [|s l IH]; simpl; intro a; auto. rewrite IH. reflexivity. Qed.

Lemma self_kid (s : slot) f : s ~> f <> s.
Proof. intro H. apply (f_equal (@List.length string)) in H. simpl in H. lia. Qed.

Lemma kid_dead st s f : own st -> s <> [] -> lives st s = false -> lives st (s ~> f) = false.
Proof.
  intros O NE D. destruct (lives st (s ~> f)) eqn:L; auto.
  apply (ow_par st O f s NE) in L. congruence.
Qed.

Lemma spare_ok l k st st' :
  (forall t, ~ In t l -> mem st' t = mem st t) -> (refused st' = true -> refused st = true) ->
  sus_ok k st -> sus_ok (spare l k) st'.
Proof.
  intros HM HR H Rf. destruct (H (HR Rf)) as [t [T1 T2]]. unfold spare.
  destruct (disj l k) eqn:D.
  - exists t. split; auto. destruct T2 as [->|T2]; auto. right. rewrite HM; auto.
    intro I. apply (proj1 (disj_spec l k) D t I T1).
  - exists []. split; [left|left]; reflexivity.
Qed.

(** The k-th request is granted. *)
Lemma rel_alloc a st s kids z :
  rel a st -> s <> [] -> inlive st s -> lives st s = false ->
  rel (let b := putk (fresh (aset a s cL) s) s kids (fun _ => if z : bool then cN else cW) in
       AS (tab b) (spare (s :: kidslots s kids) (sus a)))
      (HS (updk (upd (mem st) s (VAt (req st))) s kids (fun _ => if z then VNull else VWild))
          (req st :: live st) (S (req st)) (refused st)).
Proof.
  intros R NE IL D. pose proof (rl_own a st R) as O.
  set (w := if z then VNull else VWild).
  set (st' := HS _ _ _ _). set (k := req st) in *.
  assert (Wn : forall b, w <> VAt b) by (intro b; unfold w; destruct z; discriminate).
  (* the three kinds of pointer *)
  assert (Ms : mem st' s = VAt k).
  { unfold st'; cbn [mem]. rewrite updk_other; [apply upd_eq|].
    intro X. apply kid_in in X as [f [_ X]]. symmetry in X. exact (self_kid s f X). }
  assert (Mk : forall f, In f kids -> mem st' (s ~> f) = w).
  { intros f I. unfold st'; cbn [mem]. apply (updk_in _ s kids (fun _ => w) f I). }
  assert (Mo : forall t, t <> s -> ~ In t (kidslots s kids) -> mem st' t = mem st t).
  { intros t N1 N2. unfold st'; cbn [mem]. rewrite updk_other by exact N2. apply upd_neq, N1. }
  assert (Fr : forall t, mem st t <> VAt k).
  { intros t M. apply (ow_new st O) in M. unfold k in M. lia. }
  assert (Ls : lives st' s = true).
  { apply lives_mem. exists k. split; auto. left. reflexivity. }
  assert (Lo : forall t, t <> s -> lives st' t = lives st t).
  { intros t N. destruct (in_dec (list_eq_dec string_dec) t (kidslots s kids)) as [I|I].
    - apply kid_in in I as [f [I ->]]. rewrite (kid_dead st s f O NE D).
      unfold lives. rewrite Mk by exact I. unfold w. destruct z; reflexivity.
    - unfold lives. rewrite Mo by auto. destruct (mem st t) as [| |b] eqn:M; auto.
      cbn [live st']. unfold st'; cbn [live existsb].
      destruct (Nat.eqb b k) eqn:E; auto. apply Nat.eqb_eq in E. subst b. destruct (Fr t M). }
  split.
  - split.
    + intros x y b Mx My I.
      assert (B : forall t c, mem st' t = VAt c -> c = k -> t = s).
      { intros t c M ->. destruct (slot_eqb t s) eqn:E; [apply seqb_spec, E|]. apply seqb_false in E.
        destruct (in_dec (list_eq_dec string_dec) t (kidslots s kids)) as [J|J].
        - apply kid_in in J as [f [J ->]]. rewrite Mk in M by exact J. destruct (Wn k M).
        - rewrite Mo in M by auto. destruct (Fr t M). }
      destruct (Nat.eq_dec b k) as [->|Nb].
      * rewrite (B x k Mx eq_refl), (B y k My eq_refl). reflexivity.
      * assert (Ib : In b (live st)) by (destruct I as [I|I]; [congruence|exact I]).
        assert (Nx : x <> s) by (intros ->; rewrite Ms in Mx; congruence).
        assert (Ny : y <> s) by (intros ->; rewrite Ms in My; congruence).
        assert (Q : forall t, t <> s -> mem st' t = VAt b -> mem st t = VAt b).
        { intros t N M. rewrite <- M. symmetry. apply Mo; auto. intro J.
          apply kid_in in J as [f [J ->]]. rewrite Mk in M by exact J. destruct (Wn b M). }
        apply (ow_one st O x y b); auto.
    + intros b I. destruct I as [<-|I]; [exists s; exact Ms|].
      destruct (ow_all st O b I) as [t Ht]. exists t.
      assert (L : lives st t = true) by (apply lives_mem; eauto).
      rewrite Mo; auto.
      * intros ->. congruence.
      * intro J. apply kid_in in J as [f [J ->]]. rewrite (kid_dead st s f O NE D) in L. discriminate.
    + intros f p NP L. destruct (slot_eqb (f :: p) s) eqn:E.
      * apply seqb_spec in E. rewrite <- E in IL. simpl in IL. destruct p as [|g q]; [contradiction|].
        rewrite Lo; auto. rewrite <- E. intro X. symmetry in X. exact (self_kid (g :: q) f X).
      * apply seqb_false in E. rewrite Lo in L by exact E. apply (ow_par st O f p NP) in L.
        rewrite Lo; auto. intros ->. congruence.
    + intros t b M. unfold st'; cbn [req]. destruct (slot_eqb t s) eqn:E.
      * apply seqb_spec in E. subst t. rewrite Ms in M. injection M as <-. unfold k. lia.
      * apply seqb_false in E. destruct (in_dec (list_eq_dec string_dec) t (kidslots s kids)) as [J|J].
        -- apply kid_in in J as [f [J ->]]. rewrite Mk in M by exact J. destruct (Wn b M).
        -- rewrite Mo in M by auto. apply (ow_new st O) in M. lia.
  - intros t Ht. cbv zeta. set (b := putk _ _ _ _).
    change (aget (AS (tab b) (spare (s :: kidslots s kids) (sus a))) t) with (aget b t). unfold b; clear b.
    destruct (in_dec (list_eq_dec string_dec) t (kidslots s kids)) as [J|J].
    + apply kid_in in J as [f [J ->]]. rewrite aget_putk_in by exact J. unfold may. rewrite Mk by exact J.
      unfold w. destruct z; reflexivity.
    + rewrite aget_putk_other by exact J. rewrite aget_fresh. destruct (kid t s) eqn:K.
      * apply kid_spec in K as [f ->]. apply may_cX. rewrite Lo by apply self_kid. apply kid_dead; auto.
      * rewrite aget_aset. destruct (slot_eqb t s) eqn:E.
        -- apply seqb_spec in E. subst t. apply may_cL, Ls.
        -- apply seqb_false in E. apply (may_same _ st); auto. apply (rl_tab a st R).
           destruct t as [|f p]; auto. destruct p as [|g q]; auto. simpl in Ht |- *.
           rewrite Lo in Ht; auto. intro X. change (slot_eqb (g :: q) s = false) in K. apply seqb_false in K. contradiction.
  - cbv zeta. cbn [sus]. apply (spare_ok _ _ st); auto.
    + intros t N. apply Mo; intro X; apply N; [left; auto|right; auto].
    + apply (rl_sus a st R).
Qed.

Lemma bare_spec a st s ex f :
  rel a st -> bare a s ex = true -> s <> [] -> lives st (s ~> f) = true -> In (s ~> f) ex.
Proof.
  intros R H NE L. pose proof (rl_own a st R) as O.
  pose proof (may_cl _ st _ L (rl_tab a st R _ (lives_inlive st _ O L))) as C.
  unfold bare in H. rewrite forallb_forall in H.
  assert (X : forall l, cl (look l (s ~> f)) = true -> exists c, In (s ~> f, c) l /\ cl c = true).
  { induction l as [|[t c] l IH]; intro Y; [discriminate|].
    change (look ((t, c) :: l) (s ~> f)) with (if slot_eqb (s ~> f) t then c else look l (s ~> f)) in Y.
    destruct (slot_eqb (s ~> f) t) eqn:E.
    - apply seqb_spec in E. exists c. split; [left; rewrite E; reflexivity|exact Y].
    - destruct (IH Y) as [d [D1 D2]]. exists d. split; [right; exact D1|exact D2]. }
  destruct (X (tab a) C) as [c [I Cc]]. specialize (H _ I). cbn [fst snd] in H.
  rewrite Cc in H. simpl in H. rewrite seqb_refl in H. simpl in H. apply memb_spec, H.
Qed.

(** A live block goes. *)
Lemma rel_free a st s b c :
  rel a st -> s <> [] -> inlive st s -> mem st s = VAt b -> In b (live st) -> bare a s [] = true ->
  cd c = true ->
  rel (aset a s c) (HS (mem st) (filter (fun x => negb (Nat.eqb b x)) (live st)) (req st) (refused st)).
Proof.
  intros R NE IL M I Ba Cd. pose proof (rl_own a st R) as O. set (st' := HS _ _ _ _).
  assert (Ls : lives st' s = false).
  { unfold lives, st'; cbn [mem live]. rewrite M.
    destruct (existsb (Nat.eqb b) _) eqn:E; auto. apply existsb_In in E. apply filter_In in E as [_ E].
    rewrite Nat.eqb_refl in E. discriminate. }
  assert (Lo : forall t, t <> s -> lives st' t = lives st t).
  { intros t N. unfold lives, st'; cbn [mem live]. destruct (mem st t) as [| |e] eqn:Mt; auto.
    destruct (existsb (Nat.eqb e) (live st)) eqn:E.
    - apply existsb_In. apply filter_In. apply existsb_In in E. split; auto.
      destruct (Nat.eqb b e) eqn:F; auto. apply Nat.eqb_eq in F. subst e.
      destruct (N (ow_one st O t s b Mt M E)).
    - destruct (existsb (Nat.eqb e) (filter _ _)) eqn:F; auto. apply existsb_In in F.
      apply filter_In in F as [F _]. apply existsb_In in F. congruence. }
  assert (Nk : forall f, lives st (s ~> f) = false).
  { intro f. destruct (lives st (s ~> f)) eqn:L; auto.
    destruct (bare_spec a st s [] f R Ba NE L). }
  split.
  - split.
    + intros x y e Mx My J. apply filter_In in J as [J _]. exact (ow_one st O x y e Mx My J).
    + intros e J. apply filter_In in J as [J _]. exact (ow_all st O e J).
    + intros f p NP L. destruct (slot_eqb (f :: p) s) eqn:E.
      * apply seqb_spec in E. rewrite E in L. congruence.
      * apply seqb_false in E. rewrite Lo in L by exact E.
        assert (p <> s) by (intros ->; rewrite Nk in L; discriminate).
        apply (ow_par st O f p NP) in L. rewrite Lo; auto.
    + exact (ow_new st O).
  - intros t Ht. rewrite aget_aset. destruct (slot_eqb t s) eqn:E.
    + apply seqb_spec in E. subst t. unfold may, lives in *. change (mem st' s) with (mem st s) in *.
      rewrite M in *. rewrite Ls. exact Cd.
    + apply seqb_false in E. apply (may_same _ st); auto. apply (rl_tab a st R).
      destruct t as [|f p]; auto. destruct p as [|g q]; auto. simpl in Ht |- *.
      destruct (slot_eqb (g :: q) s) eqn:F.
      * apply seqb_spec in F. rewrite F in Ht. congruence.
      * apply seqb_false in F. rewrite Lo in Ht; auto.
  - intro Rf. destruct (rl_sus a st R Rf) as [t T]. exists t. exact T.
Qed.

Lemma root_kid f p : p <> [] -> root (p ~> f) = root p.
Proof. destruct p; [contradiction|reflexivity]. Qed.

(** A block changes owner. *)
Lemma rel_move a st d s kids c :
  rel a st -> d <> [] -> inlive st d -> lives st d = false -> local s = true -> root d <> root s ->
  bare a s (kidslots s kids) = true -> (forall t, In t (kidslots s kids) -> bare a t [] = true) ->
  mem st s <> VWild -> c = aget a s ->
  rel (let ds := d :: kidslots d kids in
       let a1 := putk (freshes (aset a d (Cls (cn c) false (cl c) (cd c))) ds) d kids (fun f => aget a (s ~> f)) in
       let a2 := putk (aset a1 s cW) s kids (fun _ => cW) in
       AS (tab a2) (spare (kidslots s kids) (map (fun t => if slot_eqb t s then d else t) (spare ds (sus a)))))
      (HS (updk (upd (updk (upd (mem st) d (mem st s)) d kids (fun f => mem st (s ~> f))) s VWild) s kids (fun _ => VWild))
          (live st) (req st) (refused st)).
Proof.
  intros R NE IL D LO RT B1 B2 NW ->. pose proof (rl_own a st R) as O.
  assert (NS : s <> []) by (intros ->; discriminate).
  assert (Rd : forall f, root (d ~> f) = root d) by (intro; apply root_kid, NE).
  assert (Rs : forall f, root (s ~> f) = root s) by (intro; apply root_kid, NS).
  assert (NDS : d <> s) by congruence.
  set (st' := HS _ _ _ _).
  assert (Ms : mem st' s = VWild).
  { unfold st'; cbn [mem]. rewrite updk_other; [apply upd_eq|].
    intro X. apply kid_in in X as [f [_ X]]. symmetry in X. exact (self_kid s f X). }
  assert (Msk : forall f, In f kids -> mem st' (s ~> f) = VWild).
  { intros f I. unfold st'; cbn [mem]. apply (updk_in _ s kids (fun _ => VWild) f I). }
  assert (Nd : forall t, root t = root d -> t <> s /\ ~ In t (kidslots s kids)).
  { intros t Rt. split; [congruence|]. intro X. apply kid_in in X as [f [_ ->]]. rewrite Rs in Rt. congruence. }
  assert (Md : mem st' d = mem st s).
  { unfold st'; cbn [mem]. destruct (Nd d eq_refl) as [N1 N2]. rewrite updk_other by exact N2.
    rewrite upd_neq by exact N1. rewrite updk_other; [apply upd_eq|].
    intro X. apply kid_in in X as [f [_ X]]. symmetry in X. exact (self_kid d f X). }
  assert (Mdk : forall f, In f kids -> mem st' (d ~> f) = mem st (s ~> f)).
  { intros f I. unfold st'; cbn [mem]. destruct (Nd (d ~> f) (Rd f)) as [N1 N2]. rewrite updk_other by exact N2.
    rewrite upd_neq by exact N1. apply (updk_in _ d kids (fun f => mem st (s ~> f)) f I). }
  assert (Mo : forall t, t <> s -> ~ In t (kidslots s kids) -> t <> d -> ~ In t (kidslots d kids) -> mem st' t = mem st t).
  { intros t N1 N2 N3 N4. unfold st'; cbn [mem]. rewrite updk_other by exact N2. rewrite upd_neq by exact N1.
    rewrite updk_other by exact N4. apply upd_neq, N3. }
  assert (KS : forall t, {f | In f kids /\ t = s ~> f} + {~ In t (kidslots s kids)}).
  { intro t. destruct (in_dec (list_eq_dec string_dec) t (kidslots s kids)) as [I|I]; [left|right; exact I].
    destruct t as [|f p]; [exfalso; apply kid_in in I as [g [_ I]]; discriminate|].
    exists f. apply kid_in in I as [g [G I]]. injection I as -> ->. auto. }
  assert (KD : forall t, {f | In f kids /\ t = d ~> f} + {~ In t (kidslots d kids)}).
  { intro t. destruct (in_dec (list_eq_dec string_dec) t (kidslots d kids)) as [I|I]; [left|right; exact I].
    destruct t as [|f p]; [exfalso; apply kid_in in I as [g [_ I]]; discriminate|].
    exists f. apply kid_in in I as [g [G I]]. injection I as -> ->. auto. }
  assert (EQ : forall t u : slot, {t = u} + {t <> u}) by apply (list_eq_dec string_dec).
  assert (Dk : forall f, lives st (d ~> f) = false) by (intro f; apply kid_dead; auto).
  assert (Dkk : forall f g, lives st (d ~> f ~> g) = false) by (intros f g; apply kid_dead; auto; discriminate).
  assert (Lsm : forall t u, mem st' t = mem st u -> lives st' t = lives st u).
  { intros t u M. unfold lives. rewrite M. reflexivity. }
  (* where a block was before *)
  assert (SRC : forall t b, mem st' t = VAt b ->
            (t = d /\ mem st s = VAt b) \/ (exists f, In f kids /\ t = d ~> f /\ mem st (s ~> f) = VAt b) \/
            (t <> s /\ ~ In t (kidslots s kids) /\ t <> d /\ ~ In t (kidslots d kids) /\ mem st t = VAt b)).
  { intros t b M. destruct (EQ t d) as [->|N1]; [left; rewrite Md in M; auto|right].
    destruct (KD t) as [[f [F ->]]|N2]; [left; exists f; rewrite Mdk in M by exact F; auto|right].
    destruct (EQ t s) as [->|N3]; [rewrite Ms in M; discriminate|].
    destruct (KS t) as [[f [F ->]]|N4]; [rewrite Msk in M by exact F; discriminate|].
    rewrite Mo in M by auto. auto. }
  split.
  - split.
    + intros x y b Mx My I. change (live st') with (live st) in I.
      assert (U : forall t u, mem st t = VAt b -> mem st u = VAt b -> t = u)
        by (intros t u T1 T2; exact (ow_one st O t u b T1 T2 I)).
      destruct (SRC x b Mx) as [[-> X]|[[f [F [-> X]]]|[X1 [X2 [X3 [X4 X]]]]]];
      destruct (SRC y b My) as [[-> Y]|[[g [G [-> Y]]]|[Y1 [Y2 [Y3 [Y4 Y]]]]]]; auto; pose proof (U _ _ X Y) as Q.
      * symmetry in Q. destruct (self_kid s g Q).
      * congruence.
      * destruct (self_kid s f Q).
      * injection Q as ->. reflexivity.
      * subst y. destruct Y2. unfold kidslots. apply in_map_iff. exists f. auto.
      * congruence.
      * subst x. destruct X2. unfold kidslots. apply in_map_iff. exists g. auto.
    + intros b I. change (live st') with (live st) in I. destruct (ow_all st O b I) as [t M].
      assert (L : lives st t = true) by (apply lives_mem; eauto).
      destruct (EQ t s) as [->|N1]; [exists d; congruence|].
      destruct (KS t) as [[f [F ->]]|N2]; [exists (d ~> f); rewrite Mdk; auto|].
      exists t. rewrite Mo; auto.
      * intros ->. congruence.
      * intro X. apply kid_in in X as [f [_ ->]]. rewrite Dk in L. discriminate.
    + intros f p NP L. apply lives_mem in L as [b [M I]]. change (live st') with (live st) in I.
      destruct (SRC _ b M) as [[E X]|[[g [G [E X]]]|[X1 [X2 [X3 [X4 X]]]]]].
      * rewrite <- E in IL. simpl in IL. destruct p as [|g q]; [contradiction|].
        assert (Rp : root (g :: q) = root d) by (rewrite <- E; symmetry; apply root_kid; discriminate).
        destruct (Nd _ Rp) as [N1 N2]. rewrite (Lsm _ (g :: q)); auto. apply Mo; auto.
        -- intro X'. rewrite X' in E. exact (self_kid d f E).
        -- intro X'. apply kid_in in X' as [h [_ X']]. rewrite X' in E.
           apply (f_equal (@List.length string)) in E. simpl in E. lia.
      * injection E as -> ->. rewrite (Lsm d s Md). apply (ow_par st O g s NS). apply lives_mem. eauto.
      * assert (L : lives st (p ~> f) = true) by (apply lives_mem; eauto).
        pose proof (ow_par st O f p NP L) as Lp. rewrite (Lsm p p); auto. apply Mo.
        -- intros ->. apply X2. apply (bare_spec a st s _ f R B1 NS L).
        -- intro Y. destruct (bare_spec a st p [] f R (B2 p Y) NP L).
        -- intros ->. congruence.
        -- intro Y. apply kid_in in Y as [g [_ ->]]. rewrite Dk in Lp. discriminate.
    + intros t b M. change (req st') with (req st).
      destruct (SRC t b M) as [[_ X]|[[f [_ [_ X]]]|[_ [_ [_ [_ X]]]]]]; exact (ow_new st O _ b X).
  - intros t Ht. cbv zeta.
    match goal with |- may (aget (AS (tab ?x) _) t) _ _ => change (may (aget x t) st' t) end.
    destruct (KS t) as [[f [F ->]]|N1].
    { rewrite aget_putk_in by exact F. unfold may. rewrite Msk by exact F. reflexivity. }
    rewrite aget_putk_other by exact N1. rewrite aget_aset. destruct (slot_eqb t s) eqn:E1.
    { apply seqb_spec in E1. subst t. unfold may. rewrite Ms. reflexivity. }
    apply seqb_false in E1. destruct (KD t) as [[f [F ->]]|N2].
    { rewrite aget_putk_in by exact F. assert (Ls : lives st s = true).
      { destruct d as [|h q]; [contradiction|]. simpl in Ht. rewrite <- (Lsm (h :: q) s Md). exact Ht. }
      assert (Q : may (aget a (s ~> f)) st (s ~> f)).
      { apply (rl_tab a st R). destruct s; [contradiction|exact Ls]. }
      unfold may in *. rewrite Mdk by exact F. exact Q. }
    rewrite aget_putk_other by exact N2. rewrite aget_freshes.
    assert (QK : forall u f, t = u ~> f -> In u (d :: kidslots d kids) -> t <> d -> may cX st' t).
    { intros u f -> U N. apply may_cX. rewrite (Lsm _ (u ~> f)).
      - destruct U as [<-|U]; [apply Dk|]. apply kid_in in U as [g [_ ->]]. apply Dkk.
      - apply Mo; auto. }
    destruct (existsb (kid t) (d :: kidslots d kids)) eqn:EX.
    { apply existsb_exists in EX as [u [U K]]. apply kid_spec in K as [f ->].
      apply (QK u f eq_refl U). destruct U as [<-|U].
      - apply self_kid.
      - intro X. apply kid_in in U as [g [_ ->]]. apply (f_equal (@List.length string)) in X. simpl in X. lia. }
    rewrite aget_aset. destruct (slot_eqb t d) eqn:E2.
    { apply seqb_spec in E2. subst t. assert (Q : may (aget a s) st s).
      { apply (rl_tab a st R). destruct s as [|x [|y q]]; try discriminate. exact I. }
      unfold may in *. rewrite Md. destruct (mem st s); auto. }
    apply seqb_false in E2. assert (M : mem st' t = mem st t) by (apply Mo; auto).
    apply (may_same _ st); auto. apply (rl_tab a st R).
    destruct t as [|f p]; auto. destruct p as [|g q]; auto. simpl in Ht |- *.
    rewrite (Lsm _ (g :: q)) in Ht; auto.
    assert (NK : forall u, In u (d :: kidslots d kids) -> g :: q <> u).
    { intros u U X. assert (Y : existsb (kid (f :: g :: q)) (d :: kidslots d kids) = true).
      { apply existsb_exists. exists u. split; auto. apply kid_spec. exists f. rewrite X. reflexivity. }
      congruence. }
    apply Mo.
    + intro X. rewrite X in Ht. unfold lives in Ht. rewrite Ms in Ht. discriminate.
    + intro X. apply kid_in in X as [h [H X]]. rewrite X in Ht. unfold lives in Ht. rewrite Msk in Ht by exact H. discriminate.
    + apply NK. left. reflexivity.
    + intro X. exact (NK _ (or_intror X) eq_refl).
  - cbv zeta. cbn [sus]. intro Rf. destruct (rl_sus a st R Rf) as [t [T1 T2]].
    unfold spare at 2. destruct (disj (d :: kidslots d kids) (sus a)) eqn:DJ.
    + pose proof (proj1 (disj_spec _ _) DJ) as J. unfold spare.
      match goal with |- context [disj ?x ?y] => destruct (disj x y) eqn:DK end.
      * pose proof (proj1 (disj_spec _ _) DK) as J2. exists (if slot_eqb t s then d else t).
        split; [apply in_map_iff; exists t; auto|]. destruct (slot_eqb t s) eqn:E.
        -- apply seqb_spec in E. subst t. destruct T2 as [->|T2]; [contradiction|]. right. congruence.
        -- destruct T2 as [->|T2]; auto. right. rewrite Mo; auto.
           ++ apply seqb_false, E.
           ++ intro X. apply (J2 t X). apply in_map_iff. exists t. rewrite E. auto.
           ++ intros ->. apply (J d (or_introl eq_refl) T1).
           ++ intro X. apply (J t (or_intror X) T1).
      * exists []. split; left; reflexivity.
    + cbn [map]. exists []. split; auto. unfold spare. destruct (slot_eqb [] s) eqn:E.
      { apply seqb_spec in E. congruence. }
      match goal with |- context [if ?x then _ else _] => destruct x end; left; reflexivity.
Qed.

(** * Soundness *)

Lemma fold_keep (F : Z -> ast -> option rep) l r0 r x :
  fold_left (fun acc (u : Z * ast) => let (z, a1) := u in
               match acc with None => None
               | Some r => match F z a1 with Some r2 => Some (both r r2) | None => None end end) l (Some r0) = Some r ->
  (ok r0 x \/ exists z a1 r2, In (z, a1) l /\ F z a1 = Some r2 /\ ok r2 x) -> ok r x.
Proof.
  revert r0. induction l as [|[z a1] l IH]; intros r0 H X.
  - simpl in H. injection H as <-. destruct X as [X|[z [a1 [r2 [I _]]]]]; [exact X|destruct I].
  - simpl in H. destruct (F z a1) as [r2|] eqn:E.
    + apply (IH _ H). destruct X as [X|[z' [a' [r' [I [F' X]]]]]]; [left; apply ok_both_l, X|].
      destruct I as [I|I].
      * injection I as -> ->. left. apply ok_both_r. congruence.
      * right. exists z', a', r'. auto.
    + exfalso. clear -H. induction l as [|[y b] l IHl]; simpl in H; [discriminate|auto].
Qed.
Lemma fold_all (F : Z -> ast -> option rep) l r0 r z a1 :
  fold_left (fun acc (u : Z * ast) => let (z, a1) := u in
               match acc with None => None
               | Some r => match F z a1 with Some r2 => Some (both r r2) | None => None end end) l (Some r0) = Some r ->
  In (z, a1) l -> exists r2, F z a1 = Some r2.
Proof.
  revert r0. induction l as [|[y b] l IH]; intros r0 H I; [destruct I|].
  simpl in H. destruct (F y b) as [r2|] eqn:E.
  - destruct I as [I|I]; [injection I as -> ->; eauto|]. exact (IH _ H I).
  - exfalso. clear -H. induction l as [|[y' b'] l IHl]; simpl in H; [discriminate|auto].
Qed.

Lemma sus_null a st s : rel a st -> s <> [] -> lives st s = false ->
  rel (AS (tab (aset a s cN)) (blamed s (sus a))) (HS (upd (mem st) s VNull) (live st) (req st) (refused st)).
Proof.
  intros R NE D. unfold blamed. destruct (existsb _ (sus a)).
  - apply rel_null; auto. intros _. left. reflexivity.
  - assert (R1 : rel (AS (tab (aset a s cN)) [s]) (HS (upd (mem st) s VNull) (live st) (req st) (refused st)))
      by (apply rel_null; auto; intros _; left; reflexivity).
    split; [exact (rl_own _ _ R1)|exact (rl_tab _ _ R1)|].
    intro Rf. destruct (rl_sus a st R Rf) as [t [T1 T2]]. exists t. split; [exact T1|].
    destruct T2 as [T2|T2]; auto. right. cbn [mem]. unfold upd. destruct (slot_eqb t s); auto.
Qed.

Theorem check_sound g fa o fl :
  (forall k s, g s = true -> o k s = true) -> (forall n b, fa n = Some b -> fl n = b) ->
  forall c a r st, check g fa c a = Some r -> rel a st -> ok r (exec o fl c st).
Proof.
  intros HG HF. induction c as [|c1 IH1 c2 IH2|z s kids|s|s|s|s|d s kids|s c1 IH1 c2 IH2|f c1 IH1 c2 IH2|z|c1 IH1 k IHk];
    intros a r st H R; cbn [check exec] in *.
  - injection H as <-. apply ok_cont, R.
  - destruct (check g fa c1 a) as [r1|] eqn:E1; [|discriminate]. specialize (IH1 a r1 st E1 R).
    destruct (go r1) as [a1|] eqn:G1.
    + destruct (check g fa c2 a1) as [r2|] eqn:E2; [|discriminate]. injection H as <-.
      destruct (exec o fl c1 st) as [st1|y st1|b].
      * simpl in IH1. destruct IH1 as [x [X1 X2]]. rewrite G1 in X1. injection X1 as <-.
        specialize (IH2 a1 r2 st1 E2 X2). destruct (exec o fl c2 st1); simpl in *; auto.
        -- apply hasr_rapp_r, IH2.
        -- apply in_or_app; auto.
      * simpl in *. apply hasr_rapp_l, IH1.
      * simpl in *. apply in_or_app; auto.
    + injection H as <-. destruct (exec o fl c1 st) as [st1|y st1|b]; auto.
      simpl in IH1. destruct IH1 as [x [X1 X2]]. congruence.
  - apply (on_sound a st s _ r _ R H). intros a' r' R' NE IL K. unfold a_alloc in K.
    destruct (cl (aget a' s)) eqn:C; [discriminate|]. cbn [negb] in K.
    assert (D : lives st s = false) by (apply (may_nolive st s (aget a' s)); auto; apply (rl_tab a' st R'), IL).
    unfold do_alloc. pose proof (rel_alloc a' st s kids z R' NE IL D) as RA. cbv zeta in RA.
    destruct (g s) eqn:G.
    + rewrite (HG _ _ G). injection K as <-. apply ok_cont. exact RA.
    + injection K as <-. destruct (o (req st) s); apply ok_cont.
      * apply rel_join_l. exact RA.
      * apply rel_join_r. apply rel_null; auto. intros _. left. reflexivity.
  - apply (on_sound a st s _ r _ R H). intros a' r' R' NE IL K.
    destruct (cl (aget a' s)) eqn:C; [discriminate|]. cbn [negb] in K. injection K as <-.
    assert (D : lives st s = false) by (apply (may_nolive st s (aget a' s)); auto; apply (rl_tab a' st R'), IL).
    apply ok_cont. apply sus_null; auto.
  - apply (on_sound a st s _ r _ R H). intros a' r' R' NE IL K. cbv zeta in K.
    pose proof (rl_tab a' st R' s IL) as M. destruct (lives st s) eqn:L.
    + rewrite (may_cl _ st s L M) in K. injection K as <-. apply ok_cont.
      apply (rel_nonnull (aset a' s cL)); auto.
      * apply rel_refine; auto. intros _. apply may_cL, L.
      * unfold lives in L. destruct (mem st s); discriminate.
    + assert (B : In s (if cn (aget a' s) || cw (aget a' s) || cd (aget a' s) then [s] else [])).
      { unfold may in M. unfold lives in L. destruct (mem st s).
        - rewrite M. left; reflexivity.
        - rewrite M, orb_true_r. left; reflexivity.
        - rewrite L in M. rewrite M, !orb_true_r. left; reflexivity. }
      destruct (cl (aget a' s)); injection K as <-; exact B.
  - apply (on_sound a st s _ r _ R H). intros a' r' R' NE IL K. cbv zeta in K. injection K as <-.
    pose proof (rl_tab a' st R' s IL) as M. destruct (mem st s) eqn:E.
    + apply ok_cont. apply rel_refine; auto. intros _. unfold may in *. rewrite E in *. exact M.
    + unfold may in M. rewrite E in M. simpl. rewrite M. left; reflexivity.
    + apply ok_cont. apply rel_refine; auto. intros _. unfold may in *. rewrite E in *. exact M.
  - apply (on_sound a st s _ r _ R H). intros a' r' R' NE IL K. unfold a_free in K. cbv zeta in K.
    pose proof (rl_tab a' st R' s IL) as M. unfold do_free. unfold may in M. destruct (mem st s) as [| |b] eqn:E.
    + destruct (cl (aget a' s)) eqn:C.
      * destruct (bare a' s []); [|discriminate]. injection K as <-. apply ok_cont.
        apply rel_refine; auto. intros _. unfold may. rewrite E. exact M.
      * rewrite M in K. injection K as <-. apply ok_cont. apply rel_refine; auto.
        intros _. unfold may. rewrite E. reflexivity.
    + rewrite M in K. simpl in K. destruct (cl (aget a' s)).
      * destruct (bare a' s []); [|discriminate]. injection K as <-. left; reflexivity.
      * destruct (cn (aget a' s)); injection K as <-; left; reflexivity.
    + destruct (existsb (Nat.eqb b) (live st)) eqn:L.
      * rewrite M in K. destruct (bare a' s []) eqn:Ba; [|discriminate]. injection K as <-.
        apply ok_cont. apply rel_free; auto. apply existsb_In, L.
      * rewrite M, orb_true_r in K. destruct (cl (aget a' s)).
        -- destruct (bare a' s []); [|discriminate]. injection K as <-. left; reflexivity.
        -- destruct (cn (aget a' s)); injection K as <-; left; reflexivity.
  - apply (on_sound a st d _ r _ R H). intros a' r' R' NE IL K.
    apply (on_sound a' st s _ r' _ R' K). intros a2 r2 R2 NE2 IL2 K2. unfold a_move in K2. cbv zeta in K2.
    match type of K2 with (if ?x then _ else _) = _ => destruct x eqn:C end; [|discriminate].
    apply andb_prop in C as [C C5]. apply andb_prop in C as [C C4]. apply andb_prop in C as [C C3].
    apply andb_prop in C as [C1 C2]. rewrite forallb_forall in C3. apply negb_true_iff in C1, C5.
    apply String.eqb_neq in C5. injection K2 as <-.
    assert (D : lives st d = false) by (apply (may_nolive st d (aget a2 d)); auto; apply (rl_tab a2 st R2), IL).
    unfold do_move. destruct (mem st s) eqn:E.
    + apply ok_cont. pose proof (rel_move a2 st d s kids (aget a2 s) R2 NE IL D C4 C5 C2 C3) as Q.
      rewrite E in Q. apply Q; auto. discriminate.
    + pose proof (rl_tab a2 st R2 s IL2) as M. unfold may in M. rewrite E in M. simpl. rewrite M. left; reflexivity.
    + apply ok_cont. pose proof (rel_move a2 st d s kids (aget a2 s) R2 NE IL D C4 C5 C2 C3) as Q.
      rewrite E in Q. apply Q; auto. discriminate.
  - apply (on_sound a st s _ r _ R H). intros a' r' R' NE IL K. cbv zeta in K.
    pose proof (rl_tab a' st R' s IL) as M.
    match type of K with match ?x with _ => _ end = _ => destruct x as [r1|] eqn:E1 end; [|discriminate].
    match type of K with match ?x with _ => _ end = _ => destruct x as [r2|] eqn:E2 end; [|discriminate].
    injection K as <-. unfold may in M. destruct (mem st s) as [| |b] eqn:E.
    + apply (ok_bad (both r1 r2)). apply ok_both_l. rewrite M in E1. apply (IH1 _ _ st E1).
      apply rel_refine; auto. intros _. unfold may. rewrite E. reflexivity.
    + simpl. rewrite M. left; reflexivity.
    + destruct (lives st s) eqn:L.
      * apply (ok_bad (both r1 r2)). apply ok_both_r. unfold lives in L. rewrite E in L. rewrite L in M.
        rewrite M in E2. apply (IH2 _ _ st E2). apply (rel_nonnull (aset a' s cL)); auto; [|congruence].
        apply rel_refine; auto. intros _. apply may_cL. unfold lives. rewrite E. exact L.
      * unfold lives in L. rewrite E in L. rewrite L in M. simpl. rewrite M, orb_true_r. left; reflexivity.
  - destruct (fa f) as [[|]|] eqn:F.
    + rewrite (HF _ _ F). apply (IH1 _ _ _ H R).
    + rewrite (HF _ _ F). apply (IH2 _ _ _ H R).
    + destruct (check g fa c1 a) as [r1|] eqn:E1; [|discriminate].
      destruct (check g fa c2 a) as [r2|] eqn:E2; [|discriminate]. injection H as <-.
      destruct (fl f); [apply ok_both_l, (IH1 _ _ _ E1 R)|apply ok_both_r, (IH2 _ _ _ E2 R)].
  - injection H as <-. exists a. split; [left; reflexivity|exact R].
  - destruct (check g fa c1 a) as [r1|] eqn:E1; [|discriminate]. specialize (IH1 a r1 st E1 R). cbv zeta in H.
    set (l := match go r1 with Some a1 => radd 0%Z a1 (rts r1) | None => rts r1 end) in H.
    assert (X : forall z st1, hasr l z st1 -> ok r (exec o fl (k z) st1)).
    { intros z st1 [a1 [I R1]].
      destruct (fold_all (fun z a1 => check g fa (k z) a1) l _ r z a1 H I) as [r2 K2].
      apply (fold_keep (fun z a1 => check g fa (k z) a1) l _ r _ H). right.
      exists z, a1, r2. split; [exact I|]. split; [exact K2|]. exact (IHk z a1 r2 st1 K2 R1). }
    destruct (exec o fl c1 st) as [st1|z st1|b].
    + apply X. unfold l. destruct IH1 as [x [-> Rx]]. apply hasr_radd_new, Rx.
    + apply X. unfold l. simpl in IH1. destruct (go r1); [apply hasr_radd_old|]; exact IH1.
    + apply (fold_keep (fun z a1 => check g fa (k z) a1) l _ r _ H). left. exact IH1.
Qed.

(** No variable is live: no block is allocated. *)
Definition clean (a : ast) : bool :=
  forallb (fun u => match fst u with _ :: _ :: _ => true | _ => negb (cl (snd u)) end) (tab a).

Lemma clean_spec a st : clean a = true -> rel a st -> live st = [].
Proof.
  intros H R. pose proof (rl_own a st R) as O. destruct (live st) as [|b l] eqn:L; auto.
  destruct (ow_all st O b) as [s M]; [rewrite L; left; reflexivity|].
  assert (Ls : lives st s = true) by (apply lives_mem; exists b; rewrite L; split; [exact M|left; reflexivity]).
  clear M. exfalso.
  assert (X : forall s, match s with _ :: _ :: _ => False | _ => True end -> lives st s = true -> False).
  { clear s Ls. intros s S Ls.
    assert (C : cl (aget a s) = true).
    { apply (may_cl _ st _ Ls). apply (rl_tab a st R). destruct s as [|f [|g q]]; try destruct S; exact I. }
    unfold aget, clean in *. clear -C H S. induction (tab a) as [|[t c] k IHk]; [discriminate|].
    simpl in H. apply andb_prop in H as [H1 H2]. cbn [look] in C.
    destruct (slot_eqb s t) eqn:E; [|auto]. apply seqb_spec in E. subst t.
    destruct s as [|f [|g q]]; [| |destruct S]; rewrite C in H1; cbn in H1; congruence. }
  induction s as [|f p IH].
  - exact (X [] I Ls).
  - destruct p as [|g q]; [exact (X [f] I Ls)|apply IH, (ow_par st O f (g :: q)); [discriminate|exact Ls]].
Qed.
