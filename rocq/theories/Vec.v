(** Dense vectors: algebra/builtin/vector.c.
    A vector is the list of its values.  Every kernel takes the vector it writes to as its first
    argument (as in C); it is [None] (undefined behaviour) when the lengths of the vectors involved
    differ, since the C loops then leave one of the arrays or write only part of the destination. *)
From Coq Require Import ZArith List Bool.
From Verif Require Import Num Arr.
Import ListNotations.
Open Scope Z_scope.
Local Open Scope opt_scope.

Definition zip {A B C} (f : A -> B -> C) (a : list A) (b : list B) : list C :=
  map (fun p => f (fst p) (snd p)) (combine a b).
Definition zip3 {A B C D} (f : A -> B -> C -> D) (a : list A) (b : list B) (c : list C) : list D :=
  zip (fun p z => f (fst p) (snd p) z) (combine a b) c.

(** The loop  for i < length: x[i] = f(a[i])  and its versions with two and three operands. *)
Definition v1 {X A C} (x : list X) (f : A -> C) (a : list A) : option (list C) :=
  if zlen x =? zlen a then Some (map f a) else None.
Definition v2 {X A B C} (x : list X) (f : A -> B -> C) (a : list A) (b : list B) : option (list C) :=
  if (zlen x =? zlen a) && (zlen a =? zlen b) then Some (zip f a b) else None.
Definition v3 {X A B C D} (x : list X) (f : A -> B -> C -> D) (a : list A) (b : list B) (c : list C)
  : option (list D) :=
  if (zlen x =? zlen a) && (zlen a =? zlen b) && (zlen b =? zlen c)
  then Some (zip3 f a b c) else None.

(** A view of [len] cells from [head] (vector.c:215-236): the slice that is read through it, and the
    vector after the slice has been overwritten through it. *)
Definition view {A} (a : list A) (head len : Z) : option (list A) :=
  if (0 <=? head) && (0 <=? len) && (head + len <=? zlen a)
  then Some (firstn (Z.to_nat len) (skipn (Z.to_nat head) a)) else None.
Definition view_write {A} (a : list A) (head len : Z) (v : list A) : option (list A) :=
  if (0 <=? head) && (0 <=? len) && (head + len <=? zlen a) && (zlen v =? len)
  then Some (firstn (Z.to_nat head) a ++ v ++ skipn (Z.to_nat (head + len)) a) else None.

Section Vec.
  Context {K : NumOps}.
  Local Open Scope num_scope.

  (** vector.c:9-22 *)
  Definition vf_is_eq (A B : list K) (tol : K) : bool :=
    if negb (zlen A =? zlen B)%Z then false
    else fold_left (fun r p => if c_absval (fst p - snd p) >? tol then false else r) (combine A B) true.
  (** vector.c:178-198 *)
  Definition vf_subvector_byrows (A : list K) (rows : list Z) : option (list K) :=
    if (zlen A =? zlen rows)%Z
    then Some (map fst (filter (fun p => negb (snd p =? 0)%Z) (combine A rows))) else None.
  (** vector.c:200-213 *)
  Definition vf_concat (A B : list K) : list K := A ++ B.
  (** vector.c:155-165: write multiplier*b into A from [start] on *)
  Definition vf_subvector_assign (A b : list K) (start length : Z) (multiplier : K) : option (list K) :=
    b <- view b 0 length ;;
    view_write A start length (map (fun v => multiplier * v) b).
  (** vector.c:167-176 *)
  Definition vf_subvector_assign_scalar (A : list K) (sc : K) (start length : Z) : option (list K) :=
    view_write A start length (zrep length sc).
  (** vector.c:238-249 *)
  Definition vf_norm_2 (v : list K) : K := nsqrt (fold_left (fun s x => s + x * x) v n0).

  (** vector.c:261-264, 271-280: copy from a vector of the same length *)
  Definition vf_copy (b a : list K) : option (list K) := v1 b (fun x => x) a.
  (** vector.c:271-280: copy from a raw array that has at least length(b) cells *)
  Definition vf_from_raw (b av : list K) : option (list K) := view av 0 (zlen b).
  (** vector.c:293-302: the raw array must have at least length(a) cells, the rest is kept *)
  Definition vf_to_raw (bv a : list K) : option (list K) := view_write bv 0 (zlen a) a.
  (** vector.c:315-324 *)
  Definition vf_set_scalar (a : list K) (sc : K) : list K := map (fun _ => sc) a.
  (** vector.c:327-342 *)
  Definition vf_set_scalar_conditional (a : list K) (test : list Z) (neg zero pos : K) : option (list K) :=
    v1 a (fun t => if (t =? 0)%Z then zero else if (0 <? t)%Z then pos else neg) test.
  (** vector.c:345-356 *)
  Definition vf_round_to_zero (a : list K) (tol : K) : list K :=
    map (fun v => if c_absval v <? tol then n0 else v) a.
  (** vector.c:359-368 *)
  Definition vf_mult_scalar (a : list K) (sc : K) : list K := map (fun v => v * sc) a.
  (** vector.c:370-390 (both branches compute a[i] + b[i]) *)
  Definition vf_plus (x a b : list K) : option (list K) := v2 x (fun p q => p + q) a b.
  (** vector.c:392-412 *)
  Definition vf_minus (x a b : list K) : option (list K) := v2 x (fun p q => p - q) a b.
  (** vector.c:414-437; [alias] tells whether x and a are the same vector *)
  Definition vf_add_scaled (alias : bool) (x : list K) (sca : K) (a : list K) (scb : K) (b : list K)
    : option (list K) :=
    if alias && (sca =? n1) then v2 x (fun p q => p + scb * q) a b
    else v2 x (fun p q => sca * p + scb * q) a b.
  (** vector.c:439-465 *)
  Definition vf_add_scaled3 (alias : bool) (x : list K) (sca : K) (a : list K) (scb : K) (b : list K)
             (scc : K) (c : list K) : option (list K) :=
    if alias && (sca =? n1) then v3 x (fun p q r => p + (scb * q + scc * r)) a b c
    else v3 x (fun p q r => sca * p + scb * q + scc * r) a b c.

  (** The loop  if (|v| > norm) norm = |v|  *)
  Definition max_step (nv v : K) : K := if c_absval v >? nv then c_absval v else nv.
  (** vector.c:468-482 *)
  Definition vf_norm_inf (v : list K) : K := fold_left max_step v n0.
  (** vector.c:497-513 *)
  Definition vf_scaled_norm_inf (S v : list K) : option K :=
    w <- v2 v (fun s x => s * x) S v ;; Some (fold_left max_step w n0).
  (** vector.c:529-544 *)
  Definition vf_norm_inf_diff (a b : list K) : option K :=
    w <- v2 a (fun p q => p - q) a b ;; Some (fold_left max_step w n0).
  (** vector.c:575-589 *)
  Definition vf_dot_prod (a b : list K) : option K :=
    w <- v2 a (fun p q => p * q) a b ;; Some (fold_left (fun s t => s + t) w n0).
  (** vector.c:591-617 *)
  Definition vf_dot_prod_signed (a b : list K) (sign : Z) : option K :=
    if (sign =? 1)%Z then
      w <- v2 a (fun p q => p * c_max q n0) a b ;; Some (fold_left (fun s t => s + t) w n0)
    else if (sign =? -1)%Z then
      w <- v2 a (fun p q => p * c_min q n0) a b ;; Some (fold_left (fun s t => s + t) w n0)
    else vf_dot_prod a b.
  (** vector.c:619-641 (both branches compute a[i] * b[i]) *)
  Definition vf_ew_prod (c a b : list K) : option (list K) := v2 c (fun p q => p * q) a b.
  (** vector.c:643-656 *)
  Definition vf_all_leq (l u : list K) : option bool :=
    w <- v2 l (fun p q => negb (p >? q)) l u ;; Some (forallb (fun b => b) w).
  (** vector.c:658-674 *)
  Definition vf_ew_bound_vec (x z l u : list K) : option (list K) :=
    v3 x (fun z l u => c_min (c_max z l) u) z l u.
  (** vector.c:676-702 *)
  Definition vf_project_polar_reccone (y l u : list K) (infval : K) : option (list K) :=
    v3 y (fun y l u =>
      if u >? infval then (if l <? - infval then n0 else c_min y n0)
      else if l <? - infval then c_max y n0 else y) y l u.
  (** vector.c:704-727 *)
  Definition vf_in_reccone (y l u : list K) (infval tol : K) : option bool :=
    w <- v3 y (fun y l u =>
           negb (((u <? infval) && (y >? tol)) || ((l >? - infval) && (y <? - tol)))) y l u ;;
    Some (forallb (fun b => b) w).
  (** vector.c:786-801 *)
  Definition vf_norm_1 (a : list K) : K := fold_left (fun s v => s + c_absval v) a n0.
  (** vector.c:803-815 *)
  Definition vf_ew_reciprocal (b a : list K) : option (list K) := v1 b (fun v => n1 / v) a.
  (** vector.c:817-827 *)
  Definition vf_ew_sqrt (a : list K) : list K := map nsqrt a.
  (** vector.c:855-868 *)
  Definition vf_ew_max_vec (c a b : list K) : option (list K) := v2 c c_max a b.
  (** vector.c:870-883 *)
  Definition vf_ew_min_vec (c a b : list K) : option (list K) := v2 c c_min a b.
  (** vector.c:885-921: the new types, and whether any changed *)
  Definition bound_type (l u tol infval : K) : Z :=
    if (l <? - infval) && (u >? infval) then (-1)%Z
    else if u - l <? tol then 1%Z else 0%Z.
  Definition vf_ew_bounds_type (iseq : list Z) (l u : list K) (tol infval : K)
    : option (list Z * bool) :=
    new <- v2 iseq (fun l u => bound_type l u tol infval) l u ;;
    Some (new, existsb (fun p => negb (fst p =? snd p)%Z) (combine new iseq)).
  (** vector.c:923-936 *)
  Definition vf_set_scalar_if_lt (x z : list K) (testval newval : K) : option (list K) :=
    v1 x (fun v => if v <? testval then newval else v) z.
  (** vector.c:938-951 *)
  Definition vf_set_scalar_if_gt (x z : list K) (testval newval : K) : option (list K) :=
    v1 x (fun v => if v >? testval then newval else v) z.
End Vec.
