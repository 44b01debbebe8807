(** Concrete sessions in binary64 for the claims about repeated and reused solvers. *)
From Coq Require Import ZArith String List Bool Lia SpecFloat.
From Verif Require Import Num Arr ArrFacts Csc CscSpec Vec Types RecSimp Kkt Linsys Scaling Validate Auxil Polish Api LinsysFacts Inv InvApi InvUpd InvSetup ValidFacts History ExEnv Runs SetupClaims MachineClaims
  TwinKer TwinInit TwinHist TwinClaims TwinReset.
Import ListNotations.
Open Scope Z_scope.

(** A machine whose clock shows c at every reading. *)
Definition clockE (c : F64) : Env F64 := exEnv (fun _ => c) (fun _ => false).
Lemma clock_sim k1 k2 : env_sim (exEnv (K := F64) k1 (fun _ => false)) (exEnv k2 (fun _ => false)).
Proof. constructor; reflexivity. Qed.
Lemma NZ_F64 : @neqb F64 n0 n0 = true. Proof. reflexivity. Qed.

(** ** Deciding that a solve is unhurried *)
Definition unhurriedb (c : F64) (s : solver F64) : bool :=
  let ok t := negb (nleb (st_time_limit (sv_settings s)) (nadd t c)) in
  ok (i_setup_time (sv_info s)) && ok (i_update_time (sv_info s)) && ok n0 && negb (st_adaptive_rho (sv_settings s) =? ADAPTIVE_RHO_TIME).
Lemma unhurriedb_ok c s : unhurriedb c s = true -> unhurried (clockE c) s.
Proof.
  unfold unhurriedb. intros H. apply andb_prop in H as (H & H4). apply andb_prop in H as (H & H3). apply andb_prop in H as (H1 & H2). apply negb_true_iff in H1, H2, H3, H4.
  split; [reflexivity|]. split.
  - intros _ k t [-> | [-> | ->]]; assumption.
  - left. apply Z.eqb_neq. assumption.
Qed.
(** Deciding that the arguments have the right sizes (without index arguments). *)
Definition longb (n : Z) (a : option (list F64)) : bool := match a with Some v => n <=? zlen v | None => true end.
Lemma longb_ok n a : longb n a = true -> vec_arg n a.
Proof. intros H v ->. cbn in H. apply Z.leb_le. exact H. Qed.
Definition argsb (c : call F64) (s : solver F64) : bool :=
  let d := w_data (sv_work s) in
  match c with
  | CUpdVec q l u => longb (d_n d) q && longb (d_m d) l && longb (d_m d) u
  | CUpdMat Px Pidx Pn Ax Aidx An => longb (nnz (d_P d)) Px && longb (nnz (d_A d)) Ax && match Pidx, Aidx with None, None => true | _, _ => false end
  | CWarm x y => longb (d_n d) x && longb (d_m d) y
  | CGetSol (Some o) => (d_n d <=? zlen (so_x o)) && (d_m d <=? zlen (so_y o)) && (d_m d <=? zlen (so_prim_inf_cert o)) && (d_n d <=? zlen (so_dual_inf_cert o))
  | _ => true
  end.
Lemma longm n k a : longb n a = true -> mat_arg n k a None.
Proof.
  intros H. apply longb_ok in H. unfold mat_arg. intros Hk. split; [|discriminate]. intros v Hv. specialize (H v Hv). destruct (k =? 0); lia.
Qed.
Lemma argsb_ok c s : argsb c s = true -> args_ok c s.
Proof.
  destruct c; cbn [argsb args_ok]; intros H; try exact I.
  - apply andb_prop in H as (H & H3). apply andb_prop in H as (H1 & H2). auto using longb_ok.
  - destruct Pidx; [rewrite andb_false_r in H; discriminate H|]. destruct Aidx; [rewrite andb_false_r in H; discriminate H|].
    apply andb_prop in H as (H & _). apply andb_prop in H as (H1 & H2). auto using longm.
  - apply andb_prop in H as (H1 & H2). auto using longb_ok.
  - destruct sol as [o|]; [|exact I]. apply andb_prop in H as (H & H4). apply andb_prop in H as (H & H3). apply andb_prop in H as (H1 & H2). constructor; apply Z.leb_le; assumption.
Qed.
Fixpoint fitsb (c : F64) (cs : list (call F64)) (s : solver F64) {struct cs} : bool :=
  match cs with
  | [] => true
  | a :: cs' => argsb a s && match a with CSolve => unhurriedb c s | _ => true end &&
                match ask (clockE c) a s with Some (_, _, HSolver t) => fitsb c cs' t | _ => true end
  end.
Lemma fitsb_ok c cs : forall s, fitsb c cs s = true -> fits (clockE c) cs s.
Proof.
  induction cs as [|a cs IH]; intros s H; [exact I|]. cbn [fitsb] in H. apply andb_prop in H as (H & H2). apply andb_prop in H as (H0 & H1). cbn [fits]. split; [apply argsb_ok; exact H0|]. split.
  - intros ->. apply unhurriedb_ok. exact H1.
  - intros fl o t Ht. rewrite Ht in H2. apply IH. exact H2.
Qed.

(** ** The same session on two machines *)
(** Two set-ups that both succeed. *)
Definition both_up (x y : option (Z * option (solver F64) * world)) (T : solver F64 -> solver F64 -> bool) : bool :=
  match x, y with Some (0, Some s, _), Some (0, Some s', _) => T s s' | _, _ => false end.
Lemma both_up_ok x y T : both_up x y T = true -> exists s s' g g', x = Some (0, Some s, g) /\ y = Some (0, Some s', g') /\ T s s' = true.
Proof.
  unfold both_up. destruct x as [[[[| |] [s|]] g]|]; try discriminate. destruct y as [[[[| |] [s'|]] g']|]; try discriminate. intros H. exists s, s', g, g'. auto.
Qed.
Local Notation fset E st := (osqp_setup E g0 (Some fP) (Some fq) (Some fA) (Some fl) (Some fu) 3 2 (Some st)).
(** Every kind of call. *)
Definition session1 : list (call F64) :=
  [CSolve; CUpdVec (Some fq) None (Some fu); CUpdMat (Some [nofZ 5; nofZ 1; nofZ 3]) None 0 None None 0; CUpdRho (nofZ 2); CUpdSettings (Some (set_st_alpha (nofZ 1) fst0)); CWarm (Some [nofZ 1; nofZ 1]) None; CSolve;
   CGetSol (Some (mksolution (K := F64) [n0; n0] [n0; n0; n0] [n0; n0; n0] [n0; n0])); CCold; CSolve].
Lemma two_clocks : exists s s' g g', osqp_setup (clockE n0) g0 (Some fP) (Some fq) (Some fA) (Some fl) (Some fu) 3 2 (Some fst0) = Some (0, Some s, g) /\
  osqp_setup (clockE (nofZ 7)) g0 (Some fP) (Some fq) (Some fA) (Some fl) (Some fu) 3 2 (Some fst0) = Some (0, Some s', g') /\ fits (clockE n0) session1 s /\ fits (clockE (nofZ 7)) session1 s' /\
  neqb (i_setup_time (sv_info s)) (i_setup_time (sv_info s')) = false.
Proof.
  destruct (both_up_ok (fset (clockE n0) fst0) (fset (clockE (nofZ 7)) fst0)
    (fun s s' => fitsb n0 session1 s && fitsb (nofZ 7) session1 s' && negb (neqb (i_setup_time (sv_info s)) (i_setup_time (sv_info s'))))) as (s & s' & g & g' & E1 & E2 & H); [vm_compute; reflexivity|].
  apply andb_prop in H as (H & H3). apply andb_prop in H as (H1 & H2). exists s, s', g, g'. split; [exact E1|]. split; [exact E2|]. split; [apply fitsb_ok; exact H1|]. split; [apply fitsb_ok; exact H2|].
  apply negb_true_iff. exact H3.
Qed.

(** ** What depends on the clock *)
(** With a time limit of four seconds the machine with the standing clock solves the problem, the one whose clock advances does not. *)
Definition both_end (x y : option (list Z * solver F64)) (f f' : list Z) (T : solver F64 -> solver F64 -> bool) : bool :=
  match x, y with Some (c, t), Some (c', t') => codes_eqb c f && codes_eqb c' f' && T t t' | _, _ => false end.
Lemma both_end_ok x y f f' T : both_end x y f f' T = true -> exists t t', x = Some (f, t) /\ y = Some (f', t') /\ T t t' = true.
Proof.
  unfold both_end. destruct x as [[c t]|]; [|discriminate]. destruct y as [[c' t']|]; [|discriminate]. intros H. apply andb_prop in H as (H & H3). apply andb_prop in H as (H1 & H2). unfold codes_eqb in H1, H2.
  destruct (list_eq_dec Z.eq_dec c f) as [->|]; [|discriminate H1]. destruct (list_eq_dec Z.eq_dec c' f') as [->|]; [|discriminate H2]. exists t, t'. auto.
Qed.
Definition duo E P q A l u m n st cs E' P' q' A' l' u' st' cs' (T : solver F64 -> solver F64 -> bool) : bool :=
  both_up (osqp_setup E g0 (Some P) (Some q) (Some A) (Some l) (Some u) m n (Some st)) (osqp_setup E' g0 (Some P') (Some q') (Some A') (Some l') (Some u') m n (Some st'))
    (fun s s' => both_end (calls E cs s) (calls E' cs' s') (map (fun _ => 0) cs) (map (fun _ => 0) cs') T).
(** After a successful osqp_setup and the calls cs, all successful. *)
Definition ends (E : Env F64) P q A l u m n st cs (t : solver F64) : Prop :=
  exists s g, osqp_setup E g0 (Some P) (Some q) (Some A) (Some l) (Some u) m n (Some st) = Some (0, Some s, g) /\ calls E cs s = Some (map (fun _ => 0) cs, t).
Lemma duo_ok E P q A l u m n st cs E' P' q' A' l' u' st' cs' T : duo E P q A l u m n st cs E' P' q' A' l' u' st' cs' T = true ->
  exists t t', ends E P q A l u m n st cs t /\ ends E' P' q' A' l' u' m n st' cs' t' /\ T t t' = true.
Proof.
  unfold duo. intros H. apply both_up_ok in H as (s & s' & g & g' & E1 & E2 & H). apply both_end_ok in H as (t & t' & C1 & C2 & H).
  exists t, t'. split; [exists s, g; split; assumption|]. split; [exists s', g'; split; assumption|exact H].
Qed.

Lemma limit_differs : exists t t', ends fE (one (nofZ 1)) [nofZ 1] (one (nofZ 1)) [nofZ 5] [nofZ 6] 1 1 limited [CSolve] t /\ ends tickE (one (nofZ 1)) [nofZ 1] (one (nofZ 1)) [nofZ 5] [nofZ 6] 1 1 limited [CSolve] t' /\
  i_status_val (sv_info t) = OSQP_SOLVED /\ i_status_val (sv_info t') = OSQP_TIME_LIMIT_REACHED.
Proof.
  destruct (duo_ok fE (one (nofZ 1)) [nofZ 1] (one (nofZ 1)) [nofZ 5] [nofZ 6] 1 1 limited [CSolve] tickE (one (nofZ 1)) [nofZ 1] (one (nofZ 1)) [nofZ 5] [nofZ 6] limited [CSolve]
    (fun t t' => (i_status_val (sv_info t) =? OSQP_SOLVED) && (i_status_val (sv_info t') =? OSQP_TIME_LIMIT_REACHED))) as (t & t' & H1 & H2 & H3); [vm_compute; reflexivity|]. bools.
  exists t, t'. auto.
Qed.
Lemma interval_differs : exists t t', ends fE fP fq fA fl fu 3 2 timed [CSolve] t /\ ends secE fP fq fA fl fu 3 2 timed [CSolve] t' /\ st_adaptive_rho_interval (sv_settings t) = 0 /\ st_adaptive_rho_interval (sv_settings t') = 1.
Proof.
  destruct (duo_ok fE fP fq fA fl fu 3 2 timed [CSolve] secE fP fq fA fl fu timed [CSolve]
    (fun t t' => (st_adaptive_rho_interval (sv_settings t) =? 0) && (st_adaptive_rho_interval (sv_settings t') =? 1))) as (t & t' & H1 & H2 & H3); [vm_compute; reflexivity|]. bools.
  exists t, t'. auto.
Qed.

(** ** A used solver and a fresh one *)
(** The second problem: P = [5 1; 1 3], q = (-1, 2), A = [2 1; 1 0; 0 1], l = (0, 0, -1), u = (3, 0.7, 0.7). *)
Definition gP : csc F64 := mkcsc 2 2 [0;1;3] [0;0;1] [nofZ 5;nofZ 1;nofZ 3] 3 (-1).
Definition gA : csc F64 := mkcsc 3 2 [0;2;4] [0;1;0;2] [nofZ 2;nofZ 1;nofZ 1;nofZ 1] 4 (-1).
Definition gq : list F64 := [nofZ (-1); nofZ 2].
Definition gl : list F64 := [nofZ 0; nofZ 0; nofZ (-1)].
Definition gu : list F64 := [nofZ 3; nlit 7 (-1); nlit 7 (-1)].
Definition to_second : list (call F64) := new_data gP gA gq gl gu (st_rho fst0).
Lemma gdata_readable : data_readable (Some gP) (Some gq) (Some gA) (Some gl) (Some gu) 3 2.
Proof. destruct fdata_readable as [HP HA _ _ _ _ _].
  assert (W : forall (M N : csc F64), wf M -> cm N = cm M -> cn N = cn M -> cp N = cp M -> ci N = ci M -> zlen (cx N) = zlen (cx M) -> wf N).
  { intros M N [] H1 H2 H3 H4 H5. assert (EN : nnz N = nnz M) by (unfold nnz, colp; congruence). constructor; unfold colp, rowi in *; rewrite ?EN, ?H1, ?H2, ?H3, ?H4, ?H5; auto. }
  constructor.
  - intros P0 [= <-]. apply (W fP); auto.
  - intros A0 [= <-]. apply (W fA); auto.
  - intros v [= <-]. cbv. discriminate.
  - intros _. eexists. split; [reflexivity|]. cbv. discriminate.
  - intros _. eexists. split; [reflexivity|]. cbv. discriminate.
  - intros v [= <-]. cbv. discriminate.
  - intros v [= <-]. cbv. discriminate.
Qed.

(** Subtraction from zero only changes the sign unless the number is a zero. *)
Lemma minus_f64 (v : F64) : match v : spec_float with S754_zero _ => False | _ => True end -> @nsub F64 n0 v = nopp v.
Proof. destruct v as [|[]| |[] m e]; intros H; try contradiction; reflexivity. Qed.
Lemma signs_f64 (rho : F64) : (forall t, In t [0; 1; -1] -> match ndiv n1 (rho_of rho t) : spec_float with S754_zero _ => False | _ => True end) -> signs rho.
Proof.
  intros H t. apply minus_f64. unfold rho_of in *. destruct (t =? 0) eqn:E0; [apply (H 0); cbn; auto|]. destruct (0 <? t) eqn:E1; [apply (H 1); cbn; auto|apply (H (-1)); cbn; auto].
Qed.

Local Notation gset E st := (osqp_setup E g0 (Some gP) (Some gq) (Some gA) (Some gl) (Some gu) 3 2 (Some st)).
(** After a solve, and then after the four calls. *)
Definition after (c : F64) (s0 : solver F64) (T : solver F64 -> solver F64 -> bool) : bool :=
  match run (clockE c) CSolve s0 with
  | Some (_, HSolver s) => match calls (clockE c) to_second s with Some (f, t) => codes_eqb f [0; 0; 0; 0] && T s t | None => false end
  | _ => false end.
Lemma after_ok c s0 T : after c s0 T = true -> exists f s t, run (clockE c) CSolve s0 = Some (f, HSolver s) /\ calls (clockE c) to_second s = Some ([0; 0; 0; 0], t) /\ T s t = true.
Proof.
  unfold after. destruct (run (clockE c) CSolve s0) as [[f [| |s]]|] eqn:E1; try discriminate. destruct (calls (clockE c) to_second s) as [[f' t]|] eqn:E2; [|discriminate].
  intros H. apply andb_prop in H as (H1 & H2). unfold codes_eqb in H1. destruct (list_eq_dec Z.eq_dec f' [0; 0; 0; 0]) as [->|]; [|discriminate H1]. exists f, s, t. auto.
Qed.
(** Equality of binary64 values and of settings, decided. *)
Definition f64_dec (a b : spec_float) : {a = b} + {a <> b}.
Proof. decide equality; try apply Bool.bool_dec; try apply Z.eq_dec; apply Pos.eq_dec. Defined.
Definition set_dec (a b : settings F64) : {a = b} + {a <> b}.
Proof. decide equality; first [apply Z.eq_dec | apply f64_dec]. Defined.
Definition is_left {A B : Prop} (d : {A} + {B}) : bool := if d then true else false.
Lemma is_left_ok {A B : Prop} (d : {A} + {B}) : is_left d = true -> A. Proof. destruct d; [auto|discriminate]. Qed.
Lemma used_and_fresh : exists s t s' g', lives (clockE n0) fP fA (Some fq) (Some fl) (Some fu) 3 2 unscaled s /\ i_status_val (sv_info s) = OSQP_SOLVED /\
  osqp_setup (clockE (nofZ 7)) g0 (Some gP) (Some gq) (Some gA) (Some gl) (Some gu) 3 2 (Some unscaled) = Some (0, Some s', g') /\
  calls (clockE n0) to_second s = Some ([0; 0; 0; 0], t) /\ sv_settings t = sv_settings s' /\ signs (st_rho (sv_settings t)) /\ unhurried (clockE n0) t /\ unhurried (clockE (nofZ 7)) s'.
Proof.
  destruct (both_up_ok (fset (clockE n0) unscaled) (gset (clockE (nofZ 7)) unscaled)
    (fun s0 s' => after n0 s0 (fun s t => (i_status_val (sv_info s) =? OSQP_SOLVED) && unhurriedb n0 t && unhurriedb (nofZ 7) s' && is_left (set_dec (sv_settings t) (sv_settings s')) && is_left (f64_dec (st_rho (sv_settings t)) (st_rho fst0)))))
    as (s0 & s' & g & g' & E1 & E2 & H); [vm_compute; reflexivity|].
  apply after_ok in H as (f & s & t & E3 & E4 & H).
  apply andb_prop in H as (H & H5). apply andb_prop in H as (H & H4). apply andb_prop in H as (H & H3). apply andb_prop in H as (H1 & H2). apply is_left_ok in H4, H5.
  exists s, t, s', g'. split. { econstructor; [exact fdata_readable|exact E1|]. econstructor 2; [apply reach_0| |exact E3]. exact I. }
  split; [apply Z.eqb_eq; exact H1|]. split; [exact E2|]. split; [exact E4|]. split; [exact H4|].
  split. { rewrite H5. apply signs_f64. intros k [<-|[<-|[<-|[]]]]; exact I. }
  split; apply unhurriedb_ok; assumption.
Qed.
Lemma alike_P : alike fP gP. Proof. repeat split. Qed.
Lemma alike_A : alike fA gA. Proof. repeat split. Qed.

(** The integral of the gap runs on. *)
Notation second := (CSolve :: to_second ++ [CSolve]).
Lemma integral_differs : exists t t', ends fE fP fq fA fl fu 3 2 unscaled second t /\ ends fE gP gq gA gl gu 3 2 unscaled [CSolve] t' /\ i_status_val (sv_info t) = OSQP_SOLVED /\ i_status_val (sv_info t') = OSQP_SOLVED /\
  nltb (nofZ 1) (i_primdual_int (sv_info t')) = true /\ nltb (nofZ 50) (i_primdual_int (sv_info t)) = true /\ nltb (i_primdual_int (sv_info t')) (nofZ 2) = true.
Proof.
  destruct (duo_ok fE fP fq fA fl fu 3 2 unscaled second fE gP gq gA gl gu unscaled [CSolve]
    (fun t t' => (i_status_val (sv_info t) =? OSQP_SOLVED) && (i_status_val (sv_info t') =? OSQP_SOLVED) && nltb (nofZ 1) (i_primdual_int (sv_info t')) && nltb (nofZ 50) (i_primdual_int (sv_info t)) && nltb (i_primdual_int (sv_info t')) (nofZ 2)))
    as (t & t' & H1 & H2 & H3); [vm_compute; reflexivity|]. bools. exists t, t'. auto 10.
Qed.
(** The status of polishing of an earlier solve stays when polishing is switched off. *)
Lemma polish_differs : exists t t', ends fE fP fq fA fl fu 3 2 (set_st_polishing 1 unscaled) (CSolve :: CUpdSettings (Some unscaled) :: to_second ++ [CSolve]) t /\ ends fE gP gq gA gl gu 3 2 unscaled [CSolve] t' /\
  st_polishing (sv_settings t) = 0 /\ i_status_polish (sv_info t) = OSQP_POLISH_SUCCESS /\ i_status_polish (sv_info t') = OSQP_POLISH_NOT_PERFORMED.
Proof.
  destruct (duo_ok fE fP fq fA fl fu 3 2 (set_st_polishing 1 unscaled) (CSolve :: CUpdSettings (Some unscaled) :: to_second ++ [CSolve]) fE gP gq gA gl gu unscaled [CSolve]
    (fun t t' => (st_polishing (sv_settings t) =? 0) && (i_status_polish (sv_info t) =? OSQP_POLISH_SUCCESS) && (i_status_polish (sv_info t') =? OSQP_POLISH_NOT_PERFORMED)))
    as (t & t' & H1 & H2 & H3); [vm_compute; reflexivity|]. bools. exists t, t'. auto 10.
Qed.
(** With the adaptation of rho that follows the KKT error the used solver needs 30 iterations, the fresh one 25: the error of the earlier solve is still in the workspace. *)
Definition by_error : settings F64 := set_st_adaptive_rho ADAPTIVE_RHO_KKT_ERROR (set_st_adaptive_rho_interval 5 (set_st_check_termination 5 unscaled)).
Lemma kkt_differs : exists t t', ends fE fP fq fA fl fu 3 2 by_error second t /\ ends fE gP gq gA gl gu 3 2 by_error [CSolve] t' /\
  i_iter (sv_info t) = 30 /\ i_iter (sv_info t') = 25 /\ i_rho_updates (sv_info t) = 0 /\ i_rho_updates (sv_info t') = 1.
Proof.
  destruct (duo_ok fE fP fq fA fl fu 3 2 by_error second fE gP gq gA gl gu by_error [CSolve]
    (fun t t' => (i_iter (sv_info t) =? 30) && (i_iter (sv_info t') =? 25) && (i_rho_updates (sv_info t) =? 0) && (i_rho_updates (sv_info t') =? 1)))
    as (t & t' & H1 & H2 & H3); [vm_compute; reflexivity|]. bools. exists t, t'. auto 10.
Qed.
(** With scaling the two solutions differ. *)
Lemma scaled_differs : exists t t', ends fE fP fq fA fl fu 3 2 fst0 second t /\ ends fE gP gq gA gl gu 3 2 fst0 [CSolve] t' /\
  i_status_val (sv_info t) = OSQP_SOLVED /\ i_status_val (sv_info t') = OSQP_SOLVED /\ neqb (hd0 (sx t)) (hd0 (sx t')) = false.
Proof.
  destruct (duo_ok fE fP fq fA fl fu 3 2 fst0 second fE gP gq gA gl gu fst0 [CSolve]
    (fun t t' => (i_status_val (sv_info t) =? OSQP_SOLVED) && (i_status_val (sv_info t') =? OSQP_SOLVED) && negb (neqb (hd0 (sx t)) (hd0 (sx t')))))
    as (t & t' & H1 & H2 & H3); [vm_compute; reflexivity|]. bools. exists t, t'. split; auto. split; auto. split; auto. split; auto. apply negb_true_iff. assumption.
Qed.
Lemma unscaled_facts : tr (st_scaling unscaled) = false /\ st_adaptive_rho unscaled <> ADAPTIVE_RHO_KKT_ERROR /\ tr (st_rho_is_vec unscaled) = true.
Proof. split; [reflexivity|]. split; [discriminate|reflexivity]. Qed.
