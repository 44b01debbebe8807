(** C arrays as lists, with explicit undefined behaviour: [None] means that the C code would
    read or write outside an array. *)
From Coq Require Import ZArith List Bool Lia.
Import ListNotations.
Open Scope Z_scope.

Declare Scope opt_scope.
Delimit Scope opt_scope with opt.
Notation "x <- e ;; k" := (match e with Some x => k | None => None end)
  (at level 100, e at next level, right associativity) : opt_scope.
Notation "e ;;; k" := (match e with Some _ => k | None => None end)
  (at level 100, right associativity) : opt_scope.

(** The read a[i]. *)
Definition zget {A} (a : list A) (i : Z) : option A :=
  if i <? 0 then None else nth_error a (Z.to_nat i).

Fixpoint upd {A} (l : list A) (k : nat) (v : A) : list A :=
  match l, k with
  | [], _ => []
  | _ :: t, O => v :: t
  | h :: t, S k' => h :: upd t k' v
  end.

Definition zlen {A} (a : list A) : Z := Z.of_nat (length a).

(** The write a[i] = v. *)
Definition zset {A} (a : list A) (i : Z) (v : A) : option (list A) :=
  if (0 <=? i) && (i <? zlen a) then Some (upd a (Z.to_nat i) v) else None.

(** An array of n cells all holding v: calloc (v = 0), or malloc with arbitrary content v
    (theorems about functions that use malloc quantify over v). *)
Definition zrep {A} (n : Z) (v : A) : list A := repeat v (Z.to_nat n).

(** The loop  for (i = lo; i < hi; i++) s = body(i, s). *)
Fixpoint for_aux {S} (k : nat) (lo : Z) (body : Z -> S -> option S) (s : S) : option S :=
  match k with
  | O => Some s
  | Datatypes.S k' => match body lo s with
           | Some s' => for_aux k' (lo + 1) body s'
           | None => None
           end
  end.
Definition for_ {S} (lo hi : Z) (body : Z -> S -> option S) (s : S) : option S :=
  for_aux (Z.to_nat (hi - lo)) lo body s.
