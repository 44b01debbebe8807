(** Properties C63, C65, C77: what acceptance of a problem says about its curvature (exact arithmetic, exact factorisation).
    Specifications used: Session.v ([session], [convex]), UserSpec.v ([user_init], [user_step], [count_ok]), CscSpec.v ([dns], [sdns]), ConvexClaims.v:
    [nearly_convex s d]: x'Px > -(sigma |x/D|^2 + sum_k rho_k (E_k (Ax)_k)^2) / c for every x other than 0, where sigma and rho are the penalties in use and
    c, D, E the scaling factors (1 when scaling is off). *)
From Coq Require Import ZArith Reals List Bool Lia Lra String.
From Verif Require Import Num Arr ArrFacts RSum Csc CscSpec CscFacts CscFacts2 CscExamples Vec VecFacts Types Kkt KktSpec Linsys LinsysFacts LinsysSolve Scaling Validate Auxil Polish Api
  Inv RecSimp InvStep InvApi InvScale InvSolve ValidFacts InvUpd InvSetup History RealVec RealStep Frame FrameSolve ProbSpec ScaleReal FrameUpd UserSpec Refine ExEnv Ldl LdlEnv Session ExReal SolveEx ConvexClaims Runs.
Import ListNotations.
Open Scope Z_scope.

(** C65: a problem osqp_setup accepts is convex up to the penalty terms. *)
Theorem C65_setup_partial : forall E, env_ok E -> exact_ldl E -> forall P A q l u m n ust g s g', data_readable (Some P) q (Some A) l u m n ->
  osqp_setup E g (Some P) q (Some A) l u m n (Some ust) = Some (0, Some s, g') ->
  exists d, user_init P A q l u m n d /\ ref d s /\ nearly_convex s d.
Proof. exact c65_setup. Qed.
Print Assumptions C65_setup_partial.
Example C65_setup_ex : env_ok rE /\ exact_ldl rE /\ data_readable (Some rP) (Some rq) (Some rA) (Some rl) (Some ru) 3 2 /\ exists g s g',
  osqp_setup rE g (Some rP) (Some rq) (Some rA) (Some rl) (Some ru) 3 2 (Some rst) = Some (0, Some s, g').
Proof.
  split; [exact rE_ok|]. split; [exact rE_exact|]. split; [exact rdata_readable|].
  destruct (setup_convex rE rE_ok rE_exact (mkworld 0%nat 0%nat 0 0 []) _ _ _ _ _ _ _ _ rdata_readable rdata_ok rst_ok rP_psd) as (s & g' & H). eauto.
Qed.

(** C65: the same after every osqp_update_data_mat that returns 0, whatever calls came before. *)
Theorem C65_update_partial : forall E, env_ok E -> exact_ldl E -> forall P A q l u m n ust s d Px Pidx Pn Ax Aidx An s' d',
  session E P A q l u m n ust s d -> args_ok (CUpdMat Px Pidx Pn Ax Aidx An) s ->
  run E (CUpdMat Px Pidx Pn Ax Aidx An) s = Some (0, HSolver s') -> user_step (CUpdMat Px Pidx Pn Ax Aidx An) d 0 d' -> nearly_convex s' d'.
Proof. exact c65_update. Qed.
Print Assumptions C65_update_partial.
Example C65_update_ex : env_ok rE /\ exact_ldl rE /\ exists s d s' d', session rE rP rA (Some rq) (Some rl) (Some ru) 3 2 rst s d /\
  args_ok (CUpdMat (K := Rops) None None 0 (Some [2]%R) (Some [3]) 1) s /\ run rE (CUpdMat None None 0 (Some [2]%R) (Some [3]) 1) s = Some (0, HSolver s') /\
  user_step (CUpdMat None None 0 (Some [2]%R) (Some [3]) 1) d 0 d' /\ count_ok (nnz (d_P d)) 0 None /\ count_ok (nnz (d_A d)) 1 (Some [3]) /\ convex d'.
Proof. exact (conj rE_ok (conj rE_exact update_ex)). Qed.

(** C65: with scaling off, a problem with a direction in the null space of A along which the curvature is -sigma or less is refused as non-convex. *)
Theorem C65_refused_partial : forall E, env_ok E -> exact_ldl E -> forall P A q l u m n ust g x, data_readable (Some P) q (Some A) l u m n ->
  data_ok (Some P) q (Some A) l u m n -> settings_ok true ust -> st_scaling ust = 0 -> direction n x ->
  (forall k, 0 <= k < m -> zsum 0 n (fun j => dns A k j * x j)%R = 0%R) ->
  (zsum 0 n (fun i => zsum 0 n (fun j => sdns P i j * x i * x j)) <= - st_sigma ust * zsum 0 n (fun i => x i * x i))%R ->
  exists s g', osqp_setup E g (Some P) q (Some A) l u m n (Some ust) = Some (OSQP_NONCVX_ERROR, Some s, g') /\ i_status_val (sv_info s) = OSQP_NON_CVX.
Proof. exact c65_refused. Qed.
Print Assumptions C65_refused_partial.
Example C65_refused_ex : env_ok rE /\ exact_ldl rE /\ data_readable (Some sP) (Some [0; 0]%R) (Some sA) (Some [0]%R) (Some [1]%R) 1 2 /\
  data_ok (Some sP) (Some [0; 0]%R) (Some sA) (Some [0]%R) (Some [1]%R) 1 2 /\
  settings_ok true wst /\ st_scaling wst = 0 /\ direction 2 IZR /\ (forall k, 0 <= k < 1 -> zsum 0 2 (fun j => dns sA k j * IZR j)%R = 0%R) /\
  (zsum 0 2 (fun i => zsum 0 2 (fun j => sdns sP i j * IZR i * IZR j)) <= - st_sigma wst * zsum 0 2 (fun i => IZR i * IZR i))%R.
Proof. exact (conj rE_ok (conj rE_exact saddle_ex)). Qed.

(** C63: osqp_update_data_mat with admissible counts never refuses matrices that leave the problem convex. *)
Theorem C63_update : forall E, env_ok E -> exact_ldl E -> forall P A q l u m n ust s d Px Pidx Pn Ax Aidx An fl s' d',
  session E P A q l u m n ust s d -> args_ok (CUpdMat Px Pidx Pn Ax Aidx An) s ->
  run E (CUpdMat Px Pidx Pn Ax Aidx An) s = Some (fl, HSolver s') -> user_step (CUpdMat Px Pidx Pn Ax Aidx An) d fl d' ->
  count_ok (nnz (d_P d)) Pn Pidx -> count_ok (nnz (d_A d)) An Aidx -> convex d' -> fl = 0.
Proof. exact c63_update. Qed.
Print Assumptions C63_update.
Example C63_update_ex : env_ok rE /\ exact_ldl rE /\ exists s d s' d', session rE rP rA (Some rq) (Some rl) (Some ru) 3 2 rst s d /\
  args_ok (CUpdMat (K := Rops) None None 0 (Some [2]%R) (Some [3]) 1) s /\ run rE (CUpdMat None None 0 (Some [2]%R) (Some [3]) 1) s = Some (0, HSolver s') /\
  user_step (CUpdMat None None 0 (Some [2]%R) (Some [3]) 1) d 0 d' /\ count_ok (nnz (d_P d)) 0 None /\ count_ok (nnz (d_A d)) 1 (Some [3]) /\ convex d'.
Proof. exact C65_update_ex. Qed.

(** C77 is false: minimise -x^2/2 + x over -1 <= 10 x <= 1 is refused by osqp_setup with rho = 0.001, but a solver set up with rho = 0.1 takes the change
    to 0.001 without complaint. *)
Theorem C77_rho_refuted : (exists s g', setup_concave 1 = Some (OSQP_NONCVX_ERROR, Some s, g')) /\
  exists s0 g' s, setup_concave 100 = Some (0, Some s0, g') /\ calls fE [CUpdRho (nlit 1 (-3))] s0 = Some ([0], s) /\ neqb (st_rho (sv_settings s)) (nlit 1 (-3)) = true.
Proof. exact rho_unchecked. Qed.
Print Assumptions C77_rho_refuted.

(** C77: what an accepted change of rho does guarantee: the new KKT system is regular and every later solve with it exact. *)
Theorem C77_exact_partial : forall E, env_ok E -> exact_ldl E -> forall P A q l u m n ust s d rho s', session E P A q l u m n ust s d -> (0 < rho)%R ->
  run E (CUpdRho rho) s = Some (0, HSolver s') -> exact E (sv_work s').
Proof. exact c77_exact. Qed.
Print Assumptions C77_exact_partial.
Example C77_exact_ex : env_ok rE /\ exact_ldl rE /\ exists s d s', session rE rP rA (Some rq) (Some rl) (Some ru) 3 2 rst s d /\ convex d /\ (0 < 5)%R /\ run rE (CUpdRho 5%R) s = Some (0, HSolver s').
Proof. exact (conj rE_ok (conj rE_exact rho_ex)). Qed.

(** C63: osqp_update_rho with a positive rho never fails on a convex problem. *)
Theorem C63_rho : forall E, env_ok E -> exact_ldl E -> forall P A q l u m n ust s d rho, session E P A q l u m n ust s d -> convex d -> (0 < rho)%R ->
  exists s', run E (CUpdRho rho) s = Some (0, HSolver s') /\ session E P A q l u m n ust s' d.
Proof. exact c63_rho. Qed.
Print Assumptions C63_rho.
Example C63_rho_ex : env_ok rE /\ exact_ldl rE /\ exists s d s', session rE rP rA (Some rq) (Some rl) (Some ru) 3 2 rst s d /\ convex d /\ (0 < 5)%R /\ run rE (CUpdRho 5%R) s = Some (0, HSolver s').
Proof. exact C77_exact_ex. Qed.
