(** What osqp_solve measures and tests, as numbers of the machine: the specification used for the verdicts in every number system, binary64 included.
    Nothing here is exact arithmetic: every operation is one of the number system, in the order in which the code performs it. *)
From Coq Require Import ZArith List Bool.
From Verif Require Import Num Arr Csc Vec Types.
Import ListNotations.
Open Scope Z_scope.

Section MachineSpec.
  Context {K : NumOps}.
  Local Open Scope num_scope.

  (** |x|, the larger and the smaller of two numbers, as the macros of include/private/glob_opts.h:36-44 compute them (they matter for NaN). *)
  Definition mabs (x : K) : K := if x <? n0 then - x else x.
  Definition larger (a b : K) : K := if a >? b then a else b.
  Definition smaller (a b : K) : K := if a <? b then a else b.
  (** The largest magnitude in v, by a running maximum; the sum of v from the left. *)
  Definition largest (v : list K) : K := fold_left (fun r x => if mabs x >? r then mabs x else r) v n0.
  Definition total (v : list K) : K := fold_left (fun s x => s + x) v n0.
  Definition times (a b : list K) : list K := zip (fun p q => p * q) a b.

  (** A multiplier as it enters the support function of the bounds: the part that belongs to an absent bound (beyond +-1e26) dropped. *)
  Definition kept (y l u : K) : K :=
    let big := OSQP_INFTY K * OSQP_MIN_SCALING K in
    if u >? big then (if l <? - big then n0 else smaller y n0) else if l <? - big then larger y n0 else y.
  Definition dead (v : K) : K := if mabs v <? OSQP_ZERO_DEADZONE K then n0 else v.
  Definition support_at (l u v : list K) : K :=
    total (zip (fun p q => p * larger q n0) u v) + total (zip (fun p q => p * smaller q n0) l v).

  (** The rho that would balance the two relative residuals of the iterate with constraint values z and products ax = A x, px = P x, aty = A'y, starting from rho
      (auxil.c:14-48), kept between 1e-6 and 1e6. *)
  Definition balance (rho : K) (q z ax px aty : list K) : K :=
    let p := largest (zip (fun a b => a - b) ax z) / (larger (largest z) (largest ax) + n1 / nlit 1 30) in
    let d := largest (zip (fun a b => a + b) (zip (fun a b => a + b) q px) aty) / (larger (larger (largest q) (largest aty)) (largest px) + n1 / nlit 1 30) in
    smaller (larger (rho * nsqrt (p / d)) (nlit 1 (-6))) (nlit 1 6).

  (** The numbers a termination test is about: residuals and gap, what the tolerances are relative to, and the values reported. *)
  Record reading := mkreading { r_prim : K; r_dual : K; r_gap : K; r_pnorm : K; r_dnorm : K; r_gnorm : K; r_obj : K; r_dobj : K; r_rgap : K }.

  (** The reading of the iterate x, y, z of the stored problem d with scaling W, given the products ax = A x, px = P x, aty = A'y. *)
  Definition reading_of (st : settings K) (d : data K) (W : scaling K) (x y z ax px aty : list K) : reading :=
    let scaled := negb (st_scaling st =? 0)%Z in
    let users := scaled && (st_scaled_termination st =? 0)%Z in
    let size (w : list K) (v : list K) := if users then largest (times w v) else largest v in
    let c (v : K) := if users then sc_cinv W * v else v in
    let quad := total (times px x) in
    let lin := total (times (d_q d) x) in
    let sup := support_at (d_l d) (d_u d) (map dead (zip3 kept y (d_l d) (d_u d))) in
    let half := nlit 5 (-1) in
    {| r_prim := if (d_m d =? 0)%Z then n0 else size (sc_Einv W) (zip (fun p q => p - q) ax z);
       r_dual := c (size (sc_Dinv W) (if (d_m d =? 0)%Z then zip (fun p q => p + q) (d_q d) px
                                       else zip (fun p q => p + q) (zip (fun p q => p + q) (d_q d) px) aty));
       r_gap := c (quad + lin + sup);
       r_pnorm := larger (size (sc_Einv W) z) (size (sc_Einv W) ax);
       r_dnorm := let m := larger (larger (size (sc_Dinv W) (d_q d)) (size (sc_Dinv W) aty)) (size (sc_Dinv W) px) in if users then m * sc_cinv W else m;
       r_gnorm := c (larger (larger (mabs quad) (mabs lin)) (mabs sup));
       r_obj := let p := half * quad + lin in if scaled then p * sc_cinv W else p;
       r_dobj := let p := - half * quad - sup in if scaled then p * sc_cinv W else p;
       r_rgap := let g := quad + lin + sup in if scaled then sc_cinv W * g else g |}.

  (** V is a reading of the iterate x, y, z: the products are those of the sparse kernels (algebra/builtin/csc_math.c, property C04) on some
      output array; without constraints A'y is a vector of zeros. *)
  Definition reads (st : settings K) (d : data K) (sc : option (scaling K)) (x y z : list K) (V : reading) : Prop :=
    exists W ax px aty, (st_scaling st <> 0%Z -> sc = Some W) /\
      (d_m d <> 0%Z -> exists b, csc_Axpy (d_A d) x b n1 n0 = Some ax) /\
      (exists b, csc_Axpy_sym_triu (d_P d) x b n1 n0 = Some px) /\
      (d_m d <> 0%Z -> exists b, csc_Atxpy (d_A d) y b n1 n0 = Some aty) /\ (d_m d = 0%Z -> Forall (eq n0) aty) /\
      V = reading_of st d W x y z ax px aty.

  (** The three tests with the tolerances of the settings, ten times larger if loose. *)
  Definition loosen (loose : bool) (e : K) : K := if loose then e * nofZ 10 else e.
  Definition below (st : settings K) (loose : bool) (v norm : K) : bool :=
    v <? loosen loose (st_eps_abs st) + loosen loose (st_eps_rel st) * norm.
  Definition accepted (st : settings K) (m : Z) (loose : bool) (V : reading) : bool :=
    ((m =? 0)%Z || below st loose (r_prim V) (r_pnorm V)) && below st loose (r_dual V) (r_dnorm V) &&
    ((st_check_dualgap st =? 0)%Z || below st loose (mabs (r_gap V)) (r_gnorm V)).
  (** A residual beyond 1e30. *)
  Definition exploded (V : reading) : bool := (r_prim V >? OSQP_INFTY K) || (r_dual V >? OSQP_INFTY K).

  (** The last change dy of y shows that no point is feasible: with the parts of absent bounds dropped it is not tiny, the support function of the
      bounds is negative there, and A' times it is small. *)
  Definition projected (d : data K) (dy : list K) : list K := zip3 kept dy (d_l d) (d_u d).
  Definition shows_infeasible (st : settings K) (d : data K) (sc : option (scaling K)) (loose : bool) (dy : list K) : Prop :=
    let users := negb (st_scaling st =? 0)%Z && (st_scaled_termination st =? 0)%Z in
    let v := projected d dy in
    exists W b t, (users = true -> sc = Some W) /\ csc_Atxpy (d_A d) v b n1 n0 = Some t /\
      let size := largest (if users then times (sc_E W) v else v) in
      (size >? OSQP_DIVISION_TOL K) = true /\ (support_at (d_l d) (d_u d) v <? n0) = true /\
      (largest (if users then times t (sc_Dinv W) else t) <? loosen loose (st_eps_prim_inf st) * size) = true.

  (** The last change dx of x shows that the objective is unbounded: it is not tiny, q'dx is negative, P dx is small, and A dx does not leave the
      recession cone of the bounds by more than the tolerance. *)
  Definition stays (tol a l u : K) : bool :=
    let big := OSQP_INFTY K * OSQP_MIN_SCALING K in
    negb (((u <? big) && (a >? tol)) || ((l >? - big) && (a <? - tol))).
  Definition shows_unbounded (st : settings K) (d : data K) (sc : option (scaling K)) (loose : bool) (dx : list K) : Prop :=
    let users := negb (st_scaling st =? 0)%Z && (st_scaled_termination st =? 0)%Z in
    let e := loosen loose (st_eps_dual_inf st) in
    exists W b1 t b2 a, (users = true -> sc = Some W) /\ csc_Axpy_sym_triu (d_P d) dx b1 n1 n0 = Some t /\ csc_Axpy (d_A d) dx b2 n1 n0 = Some a /\
      let size := largest (if users then times (sc_D W) dx else dx) in
      (size >? OSQP_DIVISION_TOL K) = true /\ (total (times (d_q d) dx) <? n0) = true /\
      (largest (if users then times t (sc_Dinv W) else t) <? (if users then sc_c W else n1) * e * size) = true /\
      forallb (fun b => b) (zip3 (stays (e * size)) (if users then times a (sc_Einv W) else a) (d_l d) (d_u d)) = true.

  (** The array a the user reads starts with the entries of v. *)
  Definition holds (a v : list K) : Prop := exists rest, a = v ++ rest.
  (** The solution structure o shows the iterate x, y, in the user's units. *)
  Definition returned (st : settings K) (sc : option (scaling K)) (x y : list K) (o : solution K) : Prop :=
    exists W, (st_scaling st <> 0%Z -> sc = Some W) /\
      holds (so_x o) (if (st_scaling st =? 0)%Z then x else times x (sc_D W)) /\
      holds (so_y o) (if (st_scaling st =? 0)%Z then y else map (fun v => v * sc_cinv W) (times y (sc_E W))).
  (** v divided by its largest magnitude (through the reciprocal). *)
  Definition normalised (v : list K) : list K := map (fun e => e * (n1 / largest v)) v.
  (** The information reports the reading V. *)
  Definition reports_reading (i : info K) (V : reading) : Prop :=
    i_prim_res i = r_prim V /\ i_dual_res i = r_dual V /\ i_duality_gap i = r_rgap V /\ i_obj_val i = r_obj V /\ i_dual_obj_val i = r_dobj V.
End MachineSpec.
