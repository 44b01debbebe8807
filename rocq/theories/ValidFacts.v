(** Data and settings validation decide exactly the documented conditions. *)
From Coq Require Import ZArith List Bool Lia.
From Verif Require Import Num Arr ArrFacts Csc CscSpec CscFacts Types Validate.
Import ListNotations.
Open Scope Z_scope.

Section Valid.
  Context {K : NumOps}.

  (** The conditions on the problem data, for arrays that can be read. *)
  Record data_ok (P : option (csc K)) (q : option (list K)) (A : option (csc K)) (l u : option (list K)) (m n : Z) : Prop := {
    va_n : 0 < n; va_m : 0 <= m;
    va_q : q <> None;
    va_P : exists P0, P = Some P0 /\ cm P0 = n /\ cn P0 = n /\
             forall j k, 0 <= j < n -> colp P0 j <= k < colp P0 (j + 1) -> rowi P0 k <= j;
    va_A : exists A0, A = Some A0 /\ cm A0 = m /\ cn A0 = n;
    va_b : forall lv uv j, l = Some lv -> u = Some uv -> 0 <= j < m -> nltb (znth n0 uv j) (znth n0 lv j) = false }.

  (** The arrays behind the pointers have the advertised sizes. *)
  Record data_readable (P : option (csc K)) (q : option (list K)) (A : option (csc K)) (l u : option (list K)) (m n : Z) : Prop := {
    dr_P : forall P0, P = Some P0 -> wf P0;
    dr_A : forall A0, A = Some A0 -> wf A0;
    dr_q : forall v, q = Some v -> n <= zlen v;
    dr_l : 0 < m -> exists v, l = Some v /\ m <= zlen v;
    dr_u : 0 < m -> exists v, u = Some v /\ m <= zlen v;
    dr_l0 : forall v, l = Some v -> m <= zlen v;
    dr_u0 : forall v, u = Some v -> m <= zlen v }.

  Lemma below_diag_spec (P : csc K) n : wf P -> cn P = n ->
    exists b, below_diag P n = Some b /\
      (b = false <-> forall j k, 0 <= j < n -> colp P j <= k < colp P (j + 1) -> rowi P k <= j).
  Proof.
    intros W Hn. pose proof (wf_n _ W) as Hn0. unfold below_diag.
    destruct (for_rule (fun t b => b = false <-> forall j k, 0 <= j < t -> colp P j <= k < colp P (j + 1) -> rowi P k <= j) 0 n
      (fun j (bad : bool) => if bad then Some true else
         match zget (cp P) j with Some lo => match zget (cp P) (j + 1) with Some hi =>
           for_ lo hi (fun ptr (bad : bool) => if bad then Some true else match zget (ci P) ptr with Some r => Some (j <? r) | None => None end) bad
         | None => None end | None => None end) false) as (b & HE & HB); [lia| | |].
    - split; auto. intros _ j k Hj. lia.
    - intros j b Hj HB. destruct b.
      + exists true. split; auto. split; [discriminate|]. intros H. apply HB. intros j' k Hj' Hk. apply H; auto. lia.
      + pose proof (wf_plen _ W). rewrite !(zget_Some 0) by lia. fold (colp P j) (colp P (j + 1)).
        destruct (for_rule (fun t b => b = false <-> forall k, colp P j <= k < t -> rowi P k <= j) (colp P j) (colp P (j + 1))
          (fun ptr (bad : bool) => if bad then Some true else match zget (ci P) ptr with Some r => Some (j <? r) | None => None end) false) as (b & HE & HB').
        * apply (wf_mono _ W); lia.
        * split; auto. intros _ k Hk. lia.
        * intros k b Hk HBk. destruct b.
          -- exists true. split; auto. split; [discriminate|]. intros H'. apply HBk. intros k' Hk'. apply H'. lia.
          -- pose proof (slot_range _ j k W ltac:(lia) Hk) as HR. pose proof (wf_ilen _ W). rewrite (zget_Some 0) by lia. fold (rowi P k).
             eexists. split; [reflexivity|]. split.
             ++ intros E k' Hk'. destruct (Z.eq_dec k' k) as [->|]; [lia|]. apply HBk; auto. lia.
             ++ intros H'. specialize (H' k ltac:(lia)). lia.
        * exists b. split; auto. rewrite HB'. split.
          -- intros H1 j' k Hj' Hk. destruct (Z.eq_dec j' j) as [->|]; [apply H1; lia|]. apply HB; auto. lia.
          -- intros H1 k Hk. apply H1; auto. lia.
    - exists b. split; auto.
  Qed.

  Lemma crossed_bounds_spec (l u : option (list K)) m : 0 <= m ->
    (0 < m -> exists v, l = Some v /\ m <= zlen v) -> (0 < m -> exists v, u = Some v /\ m <= zlen v) ->
    exists b, crossed_bounds l u m = Some b /\
      (b = false <-> forall lv uv j, l = Some lv -> u = Some uv -> 0 <= j < m -> nltb (znth n0 uv j) (znth n0 lv j) = false).
  Proof.
    intros Hm Hl Hu. unfold crossed_bounds.
    destruct (for_rule (fun t b => b = false <-> forall lv uv j, l = Some lv -> u = Some uv -> 0 <= j < t -> nltb (znth n0 uv j) (znth n0 lv j) = false) 0 m
      (fun j (bad : bool) => if bad then Some true else
         match pget l j with Some a => match pget u j with Some b => Some (nltb b a) | None => None end | None => None end) false) as (b & HE & HB); [lia| | |].
    - split; auto. intros _ lv uv j _ _ Hj. lia.
    - intros j b Hj HB. destruct b.
      + exists true. split; auto. split; [discriminate|]. intros H. apply HB. intros lv uv j' E1 E2 Hj'. apply H; auto. lia.
      + destruct Hl as (lv & -> & Ll); [lia|]. destruct Hu as (uv & -> & Lu); [lia|]. cbn [pget].
        rewrite !(zget_Some n0) by lia. eexists. split; [reflexivity|]. split.
        * intros E lv' uv' j' E1 E2 Hj'. inversion E1; inversion E2; subst. destruct (Z.eq_dec j' j) as [->|]; auto. eapply HB; eauto. lia.
        * intros H. apply (H lv uv j); auto. lia.
    - exists b. split; auto.
  Qed.

  Lemma validate_data_spec P q A l u m n : data_readable P q A l u m n ->
    exists b, validate_data P q A l u m n = Some b /\ (b = false <-> data_ok P q A l u m n).
  Proof.
    intros [HP HA Hq Hl Hu _ _]. unfold validate_data.
    destruct P as [P0|]. 2:{ exists true. split; auto. split; [discriminate|]. intros []. destruct va_P0 as (? & ? & _); discriminate. }
    destruct A as [A0|]. 2:{ exists true. split; auto. split; [discriminate|]. intros []. destruct va_A0 as (? & ? & _); discriminate. }
    destruct q as [qv|]. 2:{ exists true. split; auto. split; [discriminate|]. intros []. congruence. }
    destruct ((n <=? 0) || (m <? 0)) eqn:E1. { exists true. split; auto. split; [discriminate|]. intros []. lia. }
    destruct (cm P0 =? n) eqn:E2; cbn [negb]. 2:{ exists true. split; auto. split; [discriminate|]. intros []. destruct va_P0 as (? & E & ? & _). inversion E; subst. lia. }
    destruct (cm P0 =? cn P0) eqn:E3; cbn [negb]. 2:{ exists true. split; auto. split; [discriminate|]. intros []. destruct va_P0 as (? & E & ? & ? & _). inversion E; subst. lia. }
    destruct (below_diag_spec P0 n) as (b & -> & HB); [auto|lia|]. destruct b.
    { exists true. split; auto. split; [discriminate|]. intros []. destruct va_P0 as (? & E & _ & _ & H). inversion E; subst. apply HB; auto. }
    destruct ((cm A0 =? m)) eqn:E4; cbn [negb orb]. 2:{ exists true. split; auto. split; [discriminate|]. intros []. destruct va_A0 as (? & E & ? & _). inversion E; subst. lia. }
    destruct ((cn A0 =? n)) eqn:E5; cbn [negb orb]. 2:{ exists true. split; auto. split; [discriminate|]. intros []. destruct va_A0 as (? & E & ? & ?). inversion E; subst. lia. }
    destruct (crossed_bounds_spec l u m) as (b & -> & HC); [lia|auto|auto|]. exists b. split; auto. rewrite HC. split.
    - intros H. constructor; auto; try lia; try discriminate.
      + exists P0. repeat (split; [solve [auto; lia]|]). apply HB; auto.
      + exists A0. repeat split; auto; lia.
    - intros []. auto.
  Qed.

  (** The documented ranges; fields that osqp_update_settings cannot change are only looked at by osqp_setup
      ([setup] = true).  [lt0 x] and so on are the C comparisons, so that a NaN field fails no test. *)
  Definition gt_ok (a x : K) : Prop := nleb x a = false.   (* not (x <= a) *)
  Definition ge_ok (a x : K) : Prop := nltb x a = false.   (* not (x < a) *)
  Definition lt_ok (x b : K) : Prop := nleb b x = false.   (* not (x >= b) *)
  Record settings_ok (setup : bool) (s : settings K) : Prop := {
    vs_linsys : setup = true -> st_linsys_solver s = OSQP_DIRECT_SOLVER;
    vs_alloc : setup = true -> st_allocate_solution s = 0 \/ st_allocate_solution s = 1;
    vs_verbose : st_verbose s = 0 \/ st_verbose s = 1;
    vs_profiler : 0 <= st_profiler_level s <= 2;
    vs_warm : st_warm_starting s = 0 \/ st_warm_starting s = 1;
    vs_scaling : setup = true -> 0 <= st_scaling s;
    vs_polishing : st_polishing s = 0 \/ st_polishing s = 1;
    vs_rho : setup = true -> gt_ok n0 (st_rho s);
    vs_rho_is_vec : setup = true -> st_rho_is_vec s = 0 \/ st_rho_is_vec s = 1;
    vs_sigma : setup = true -> gt_ok n0 (st_sigma s);
    vs_alpha : gt_ok n0 (st_alpha s) /\ lt_ok (st_alpha s) (nofZ 2);
    vs_cg_max : 0 < st_cg_max_iter s;
    vs_cg_red : 0 < st_cg_tol_reduction s;
    vs_cg_frac : gt_ok n0 (st_cg_tol_fraction s) /\ lt_ok (st_cg_tol_fraction s) n1;
    vs_adaptive : (setup = true -> 0 <= st_adaptive_rho s) /\ st_adaptive_rho s <= ADAPTIVE_RHO_KKT_ERROR;
    vs_interval : setup = true -> 0 <= st_adaptive_rho_interval s;
    vs_fraction : setup = true -> gt_ok n0 (st_adaptive_rho_fraction s);
    vs_tolerance : setup = true -> ge_ok n1 (st_adaptive_rho_tolerance s);
    vs_max_iter : 0 < st_max_iter s;
    vs_eps_abs : ge_ok n0 (st_eps_abs s);
    vs_eps_rel : ge_ok n0 (st_eps_rel s);
    vs_eps : neqb (st_eps_rel s) n0 = false \/ neqb (st_eps_abs s) n0 = false;
    vs_eps_pinf : gt_ok n0 (st_eps_prim_inf s);
    vs_eps_dinf : gt_ok n0 (st_eps_dual_inf s);
    vs_scaled : st_scaled_termination s = 0 \/ st_scaled_termination s = 1;
    vs_check : 0 <= st_check_termination s;
    vs_gap : st_check_dualgap s = 0 \/ st_check_dualgap s = 1;
    vs_time : gt_ok n0 (st_time_limit s);
    vs_delta : gt_ok n0 (st_delta s);
    vs_refine : 0 <= st_polish_refine_iter s }.

  Lemma if_true_false (b c : bool) : (if b then true else c) = false <-> b = false /\ c = false.
  Proof. destruct b, c; intuition congruence. Qed.
  Lemma flag01 z : negb (z =? 0) && negb (z =? 1) = false <-> z = 0 \/ z = 1. Proof. lia. Qed.
  Lemma fs_flag01 fs z : fs && negb (z =? 0) && negb (z =? 1) = false <-> (fs = true -> z = 0 \/ z = 1).
  Proof. destruct fs; cbn [andb]; [rewrite flag01|]; intuition congruence. Qed.
  Lemma fs_b fs b : fs && b = false <-> (fs = true -> b = false).
  Proof. destruct fs; cbn [andb]; intuition congruence. Qed.

  Lemma validate_settings_spec o fs : validate_settings o fs = false <-> exists s, o = Some s /\ settings_ok fs s.
  Proof.
    destruct o as [s|]; [|split; [discriminate|intros (? & ? & _); discriminate]].
    transitivity (settings_ok fs s); [|split; [intros; exists s; auto|intros (? & [= <-] & ?); auto]].
    unfold validate_settings. repeat rewrite if_true_false.
    rewrite !orb_false_iff, !fs_flag01, !flag01, !(fs_b fs), !andb_false_iff.
    unfold validate_linsys_solver. rewrite andb_false_r, andb_true_r.
    split.
    - intros H. decompose [and] H. clear H.
      constructor; unfold gt_ok, ge_ok, lt_ok, ADAPTIVE_RHO_LAST_VALUE, ADAPTIVE_RHO_KKT_ERROR in *; auto; try lia.
      + intros Hs. apply H0 in Hs. destruct (st_linsys_solver s =? OSQP_DIRECT_SOLVER) eqn:Eq; [lia|discriminate].
      + intros Hs. match goal with H : fs = true -> (st_scaling s <? 0) = false |- _ => specialize (H Hs) end. lia.
      + split; [|lia]. intros Hs. match goal with H : fs = true -> (st_adaptive_rho s <? 0) = false |- _ => specialize (H Hs) end. lia.
      + intros Hs. match goal with H : fs = true -> (st_adaptive_rho_interval s <? 0) = false |- _ => specialize (H Hs) end. lia.
    - intros []. unfold gt_ok, ge_ok, lt_ok, ADAPTIVE_RHO_LAST_VALUE, ADAPTIVE_RHO_KKT_ERROR in *.
      repeat split; auto; try lia; try tauto.
      all: try (intros Hs; repeat match goal with H : ?f = true -> _ |- _ => specialize (H Hs) end).
      all: try (rewrite vs_linsys0; reflexivity).
      all: try (destruct vs_adaptive0 as [vs_adaptive0 _]; specialize (vs_adaptive0 Hs)); lia.
  Qed.
End Valid.
