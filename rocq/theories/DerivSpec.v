(** Sensitivity of the solution of a quadratic program: what the derivative functions should return, stated without reference to the solver. *)
From Coq Require Import ZArith Reals List Bool Lia Lra.
From Verif Require Import Num RSum RealStep QpSpec.
Open Scope Z_scope.
Local Open Scope R_scope.

(** Constraints with a lower bound, with an upper bound (a bound beyond 1e26 is none), and equalities. *)
Definition has_low (p : qp) (i : Z) : bool := Rltb (q_l p i) (q_u p i) && Rltb (- 10 ^ 26) (q_l p i).
Definition has_up (p : qp) (i : Z) : bool := Rltb (q_l p i) (q_u p i) && Rltb (q_u p i) (10 ^ 26).
Definition is_eq (p : qp) (i : Z) : bool := negb (Rltb (q_l p i) (q_u p i)).

(** A direction [dp] in which the data (P, q, A, l, u) of [p] may move: P stays symmetric, equalities stay equalities. *)
Record direction (p dp : qp) : Prop := {
  dr_n : q_n dp = q_n p; dr_m : q_m dp = q_m p; dr_sym : symmetric dp;
  dr_eq : forall i, (0 <= i < q_m p)%Z -> is_eq p i = true -> q_l dp i = q_u dp i }.

(** The optimality conditions differentiated at an optimal (x, y): when the data move along [dp], the solution moves along (x', y').
    Active constraints stay active, the multipliers of the others stay zero. *)
Record tangent (p dp : qp) (x y x' y' : Z -> R) : Prop := {
  tg_stat : forall j, (0 <= j < q_n p)%Z -> Pmul p x' j + Pmul dp x j + q_q dp j + Atmul p y' j + Atmul dp y j = 0;
  tg_low : forall i, (0 <= i < q_m p)%Z -> y i < 0 -> Amul p x' i + Amul dp x i = q_l dp i;
  tg_up : forall i, (0 <= i < q_m p)%Z -> 0 < y i -> Amul p x' i + Amul dp x i = q_u dp i;
  tg_eq : forall i, (0 <= i < q_m p)%Z -> is_eq p i = true -> Amul p x' i + Amul dp x i = q_u dp i;
  tg_free : forall i, (0 <= i < q_m p)%Z -> is_eq p i = false -> y i = 0 -> y' i = 0 }.

(** Bounds that hold the solution are genuine ones. *)
Definition bounds_real (p : qp) (y : Z -> R) : Prop := forall i, (0 <= i < q_m p)%Z -> (y i < 0 -> - 10 ^ 26 < q_l p i) /\ (0 < y i -> q_u p i < 10 ^ 26).

(** The first-order change of  sum dx x + sum dy y  that gradients (gP, gq, gA, gl, gu) predict for the direction [dp]. *)
Definition predicted (p : qp) (gP gA : Z -> Z -> R) (gq gl gu : Z -> R) (dp : qp) : R :=
  sumn (q_n p) (fun i => sumn (q_n p) (fun j => gP i j * q_P dp i j)) + sumn (q_n p) (fun j => gq j * q_q dp j) +
  sumn (q_m p) (fun i => sumn (q_n p) (fun j => gA i j * q_A dp i j)) + sumn (q_m p) (fun i => gl i * q_l dp i) + sumn (q_m p) (fun i => gu i * q_u dp i).

(** The multipliers of the two sides of a constraint. *)
Definition lamL (y : Z -> R) (i : Z) : R := Rmax (- y i) 0.
Definition lamU (y : Z -> R) (i : Z) : R := Rmax (y i) 0.

(** The derivative of the optimality conditions at (x, y), a linear map of the changes of x and of the multipliers of lower bounds, upper bounds and
    equalities: stationarity, complementarity, equality.  (No optimality of (x, y) is assumed.) *)
Section Jac.
  Variables (p : qp) (x y : Z -> R).
  Definition on (b : bool) (r : R) : R := if b then r else 0.
  Definition J_stat (vx vl vu ve : Z -> R) (j : Z) : R :=
    Pmul p vx j + sumn (q_m p) (fun i => q_A p i j * (on (has_up p i) (vu i) - on (has_low p i) (vl i) + on (is_eq p i) (ve i))).
  Definition J_low (vx vl : Z -> R) (i : Z) : R := - lamL y i * Amul p vx i + (q_l p i - Amul p x i) * vl i.
  Definition J_up (vx vu : Z -> R) (i : Z) : R := lamU y i * Amul p vx i + (Amul p x i - q_u p i) * vu i.
  Definition J_eq (vx : Z -> R) (i : Z) : R := Amul p vx i.
  (** sum of squares *)
  Definition size (a b c d : Z -> R) : R :=
    sumn (q_n p) (fun j => a j * a j) +
    sumn (q_m p) (fun i => on (has_low p i) (b i * b i) + on (has_up p i) (c i * c i) + on (is_eq p i) (d i * d i)).
  (** The Jacobian does not shrink any vector by more than a factor k. *)
  Definition conditioned (k : R) : Prop := forall vx vl vu ve,
    k * k * size vx vl vu ve <= size (J_stat vx vl vu ve) (J_low vx vl) (J_up vx vu) (J_eq vx).
End Jac.

(** The signs with which the derivative functions use the entries of dy: on a constraint with a negative multiplier they use -dy (see C73_documented_refuted). *)
Definition sgn_used (y : Z -> R) (i : Z) : R := if Rlt_dec (y i) 0 then -1 else 1.

(** The sum of the squares of v_0 .. v_(n-1). *)
Definition sumsq (n : Z) (v : Z -> R) : R := sumn n (fun i => v i * v i).
