(** Scalars.  The whole model is written over a record of scalar operations, so that the same
    definitions can be read over the reals (exact arithmetic) and over IEEE binary64. *)
From Coq Require Import ZArith Reals Bool List.
From Coq Require Import Floats.SpecFloat.
Import ListNotations.
Open Scope Z_scope.

(** The operations that the C code applies to [OSQPFloat]
    (include/public/osqp_api_types.h:10-40, include/private/glob_opts.h: [c_sqrt]).
    There are no laws in this record. *)
Record NumOps := {
  car  :> Type;
  nadd : car -> car -> car;
  nsub : car -> car -> car;
  nmul : car -> car -> car;
  ndiv : car -> car -> car;
  nopp : car -> car;
  nsqrt : car -> car;
  nltb : car -> car -> bool;     (* C's a < b *)
  nleb : car -> car -> bool;     (* C's a <= b *)
  neqb : car -> car -> bool;     (* C's a == b *)
  nlit : Z -> Z -> car           (* the literal  m * 10^e *)
}.

Arguments nadd {_}. Arguments nsub {_}. Arguments nmul {_}. Arguments ndiv {_}.
Arguments nopp {_}. Arguments nsqrt {_}. Arguments nltb {_}. Arguments nleb {_}.
Arguments neqb {_}. Arguments nlit {_}.

Declare Scope num_scope.
Delimit Scope num_scope with num.
Bind Scope num_scope with car.
Notation "a + b" := (nadd a b) : num_scope.
Notation "a - b" := (nsub a b) : num_scope.
Notation "a * b" := (nmul a b) : num_scope.
Notation "a / b" := (ndiv a b) : num_scope.
Notation "- a" := (nopp a) : num_scope.
Notation "a <? b" := (nltb a b) : num_scope.
Notation "a <=? b" := (nleb a b) : num_scope.
Notation "a =? b" := (neqb a b) : num_scope.
Notation "a >? b" := (nltb b a) : num_scope.
Notation "a >=? b" := (nleb b a) : num_scope.

Section Generic.
  Variable K : NumOps.
  Local Open Scope num_scope.

  (** Integer constants such as 0.0, 1.0. *)
  Definition n0 : K := nlit 0 0.
  Definition n1 : K := nlit 1 0.
  (** A conversion from OSQPInt. *)
  Definition nofZ (z : Z) : K := nlit z 0.

  (** include/private/glob_opts.h: c_absval(x) = ((x) < 0) ? -(x) : (x) *)
  Definition c_absval (x : K) : K := if x <? n0 then - x else x.
  (** include/private/glob_opts.h: c_max(a, b) = ((a) > (b)) ? (a) : (b) *)
  Definition c_max (a b : K) : K := if a >? b then a else b.
  (** include/private/glob_opts.h: c_min(a, b) = ((a) < (b)) ? (a) : (b) *)
  Definition c_min (a b : K) : K := if a <? b then a else b.

  (** C's truth value of a floating-point number: x != 0 *)
  Definition ntruth (x : K) : bool := negb (x =? n0).

  (** include/public/osqp_api_constants.h:90-140 (double precision branch) *)
  Definition OSQP_RHO : K := nlit 1 (-1).
  Definition OSQP_SIGMA : K := nlit 1 (-6).
  Definition OSQP_ALPHA : K := nlit 16 (-1).
  Definition OSQP_RHO_MIN : K := nlit 1 (-6).
  Definition OSQP_RHO_MAX : K := nlit 1 6.
  Definition OSQP_RHO_TOL : K := nlit 1 (-4).
  Definition OSQP_RHO_EQ_OVER_RHO_INEQ : K := nlit 1 3.
  Definition OSQP_INFTY : K := nlit 1 30.
  Definition OSQP_DIVISION_TOL : K := n1 / OSQP_INFTY.
  Definition OSQP_MIN_SCALING : K := nlit 1 (-4).
  Definition OSQP_MAX_SCALING : K := nlit 1 4.
  Definition OSQP_ZERO_DEADZONE : K := nlit 1 (-15).
  (** OSQP_NAN = ((OSQPFloat)0x7fc00000UL): an integer constant converted to floating point. *)
  Definition OSQP_NAN : K := nofZ 2143289344.

End Generic.

Arguments n0 {K}. Arguments n1 {K}. Arguments nofZ {K}.
Arguments c_absval {K}. Arguments c_max {K}. Arguments c_min {K}. Arguments ntruth {K}.

(** ** The reals *)

Definition Rltb (a b : R) : bool := if Rlt_dec a b then true else false.
Definition Rleb (a b : R) : bool := if Rle_dec a b then true else false.
Definition Reqb (a b : R) : bool := if Req_EM_T a b then true else false.
Definition Rlit (m e : Z) : R := (IZR m * powerRZ 10 e)%R.

Definition Rops : NumOps := {|
  car := R; nadd := Rplus; nsub := Rminus; nmul := Rmult; ndiv := Rdiv; nopp := Ropp;
  nsqrt := sqrt; nltb := Rltb; nleb := Rleb; neqb := Reqb; nlit := Rlit |}.

(** ** IEEE binary64 (round to nearest, ties to even), as specified by Coq's SpecFloat *)

Definition sf_of_Z (z : Z) : spec_float :=
  match z with
  | Z0 => S754_zero false
  | Zpos p => binary_normalize 53 1024 (Zpos p) 0 false
  | Zneg p => binary_normalize 53 1024 (Zneg p) 0 true
  end.

(** Literals: m*10^e rounds m*10^e correctly when e >= 0; when e < 0 it is the quotient of
    two integers, correctly rounded when both are exactly representable (true of all literals used). *)
Definition sf_lit (m e : Z) : spec_float :=
  if e <? 0 then SFdiv 53 1024 (sf_of_Z m) (sf_of_Z (10 ^ (- e)))
  else sf_of_Z (m * 10 ^ e).

Definition F64 : NumOps := {|
  car := spec_float;
  nadd := SFadd 53 1024; nsub := SFsub 53 1024; nmul := SFmul 53 1024; ndiv := SFdiv 53 1024;
  nopp := SFopp; nsqrt := SFsqrt 53 1024; nltb := SFltb; nleb := SFleb; neqb := SFeqb;
  nlit := sf_lit |}.
