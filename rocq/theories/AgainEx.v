(** Sessions in binary64 for the claim about solving again.  Not a model of any file. *)
From Coq Require Import ZArith String List Bool Lia SpecFloat.
From Verif Require Import Num Arr ArrFacts Csc CscSpec Vec Types Linsys Validate Auxil Api LinsysFacts Inv InvApi InvSetup ValidFacts History ExEnv Runs SetupClaims MachineClaims
  TwinKer TwinInit TwinHist TwinClaims TwinReset TwinEx TwinAgain.
Import ListNotations.
Open Scope Z_scope.

Definition no_matrix (c : call F64) : bool := match c with CUpdMat _ _ _ _ _ _ => false | _ => true end.
Fixpoint laterb (c : F64) (cs : list (call F64)) (s : solver F64) {struct cs} : bool :=
  match cs with
  | [] => true
  | a :: cs' => argsb a s && no_matrix a && match run (clockE c) a s with Some (_, HSolver t) => laterb c cs' t | _ => true end
  end.
Lemma laterb_ok c cs : forall s0 s f t, laterb c cs s = true -> later (clockE c) s0 s -> calls (clockE c) cs s = Some (f, t) -> later (clockE c) s0 t.
Proof.
  induction cs as [|a cs IH]; intros s0 s f t H L HC; cbn [calls laterb] in *; [injection HC as _ <-; exact L|].
  apply andb_prop in H as (H & H2). apply andb_prop in H as (H0 & H1). destruct (run (clockE c) a s) as [[fl [| |s1]]|] eqn:Er; try discriminate HC.
  destruct (calls (clockE c) cs s1) as [[f1 s2]|] eqn:Ec; [|discriminate HC]. injection HC as _ <-. apply (IH s0 s1 f1 s2 H2); [|exact Ec].
  eapply later_S; [exact L|apply argsb_ok; exact H0|exact Er|]. destruct a; try exact I. discriminate H1.
Qed.
Definition csc_dec (a b : csc F64) : {a = b} + {a <> b}.
Proof. decide equality; try apply Z.eq_dec; try apply (list_eq_dec Z.eq_dec); apply (list_eq_dec f64_dec). Defined.
Definition data_dec (a b : data F64) : {a = b} + {a <> b}.
Proof. decide equality; try apply Z.eq_dec; try apply csc_dec; apply (list_eq_dec f64_dec). Defined.

(** Default settings, hence scaled, but with warm starting and the adaptation of rho off. *)
Definition coldly : settings F64 := set_st_warm_starting 0 (set_st_adaptive_rho 0 fst0).
(** The vectors given once; and given after another problem was solved, a starting point was given and warm starting was switched off again. *)
Definition direct : list (call F64) := [CUpdVec (Some fq) (Some fl) (Some fu)].
Definition detour (st : settings F64) : list (call F64) :=
  [CUpdVec (Some gq) (Some gl) (Some gu); CSolve; CWarm (Some [nofZ 1; nofZ 3]) (Some [nofZ 1; nofZ 1; nofZ 2]); CSolve; CUpdSettings (Some st); CUpdVec (Some fq) (Some fl) (Some fu)].
(** The hypotheses of C82 for the two histories. *)
Definition two_ways (st : settings F64) : Prop := exists s0 g' s t, osqp_setup (clockE n0) g0 (Some fP) (Some fq) (Some fA) (Some fl) (Some fu) 3 2 (Some st) = Some (0, Some s0, g') /\
  later (clockE n0) s0 s /\ later (clockE n0) s0 t /\ w_data (sv_work t) = w_data (sv_work s) /\ sv_settings t = sv_settings s /\ i_status_val (sv_info t) = i_status_val (sv_info s) /\
  i_rho_updates (sv_info t) = i_rho_updates (sv_info s) /\ st_warm_starting (sv_settings s) = 0 /\ st_scaling (sv_settings s) = 10 /\ st_adaptive_rho (sv_settings s) <> ADAPTIVE_RHO_KKT_ERROR /\
  signs (st_rho (sv_settings s)) /\ unhurried (clockE n0) s /\ unhurried (clockE n0) t /\ neqb (hd0 (w_x (sv_work t))) (hd0 (w_x (sv_work s))) = false.
Definition ways (st : settings F64) : bool :=
  both_up (osqp_setup (clockE n0) g0 (Some fP) (Some fq) (Some fA) (Some fl) (Some fu) 3 2 (Some st)) (osqp_setup (clockE n0) g0 (Some fP) (Some fq) (Some fA) (Some fl) (Some fu) 3 2 (Some st))
    (fun s0 s1 => laterb n0 direct s0 && laterb n0 (detour st) s1 && both_end (calls (clockE n0) direct s0) (calls (clockE n0) (detour st) s1) [0] [0; 0; 0; 0; 0; 0] (fun s t =>
      is_left (data_dec (w_data (sv_work t)) (w_data (sv_work s))) && is_left (set_dec (sv_settings t) (sv_settings s)) && is_left (f64_dec (st_rho (sv_settings s)) (st_rho fst0)) &&
      (i_status_val (sv_info t) =? i_status_val (sv_info s)) && (i_rho_updates (sv_info t) =? i_rho_updates (sv_info s)) && (st_warm_starting (sv_settings s) =? 0) && (st_scaling (sv_settings s) =? 10) &&
      negb (st_adaptive_rho (sv_settings s) =? ADAPTIVE_RHO_KKT_ERROR) && unhurriedb n0 s && unhurriedb n0 t && negb (neqb (hd0 (w_x (sv_work t))) (hd0 (w_x (sv_work s)))))).
Lemma ways_ok st : ways st = true -> two_ways st.
Proof.
  intros H. apply both_up_ok in H as (s0 & s1 & g & g' & E1 & E2 & H).
  rewrite E1 in E2. injection E2 as <- <-. apply andb_prop in H as (H & H2). apply andb_prop in H as (H0 & H1). apply both_end_ok in H2 as (s & t & C1 & C2 & H).
  split_bool H. apply is_left_ok in H, B8, B7. bools.
  exists s0, g, s, t. split; [exact E1|]. split; [eapply laterb_ok; [exact H0|apply later_0|exact C1]|]. split; [eapply laterb_ok; [exact H1|apply later_0|exact C2]|].
  split; [assumption|]. split; [assumption|]. split; [assumption|]. split; [assumption|]. split; [assumption|]. split; [assumption|].
  split; [apply Z.eqb_neq, negb_true_iff; assumption|].
  split. { rewrite B7. apply signs_f64. intros k [<-|[<-|[<-|[]]]]; exact I. }
  split; [apply unhurriedb_ok; assumption|]. split; [apply unhurriedb_ok; assumption|]. apply negb_true_iff. assumption.
Qed.
(** With a vector of rho and with a single one. *)
Lemma both_ways : two_ways coldly /\ two_ways (set_st_rho_is_vec 0 coldly) /\ clamp (st_rho coldly) = st_rho coldly.
Proof. split; [apply ways_ok; vm_compute; reflexivity|]. split; [apply ways_ok; vm_compute; reflexivity|vm_compute; reflexivity]. Qed.

(** The status matters: an infeasible problem, the same solver solved once and solved twice, with warm starting off; the first time the objective is reported as infinite, the second time as about 1/8. *)
Definition brief : settings F64 := set_st_max_iter 30 coldly.
Lemma twice_differs : exists t t', ends fE iP iq iA il iu 2 1 brief [CSolve] t /\ ends fE iP iq iA il iu 2 1 brief [CSolve; CSolve] t' /\ w_data (sv_work t') = w_data (sv_work t) /\ sv_settings t' = sv_settings t /\ st_warm_starting (sv_settings t) = 0 /\
  i_rho_updates (sv_info t') = i_rho_updates (sv_info t) /\ i_status_val (sv_info t) = OSQP_PRIMAL_INFEASIBLE_INACCURATE /\ i_status_val (sv_info t') = OSQP_PRIMAL_INFEASIBLE_INACCURATE /\ i_iter (sv_info t') = i_iter (sv_info t) /\
  i_obj_val (sv_info t) = OSQP_INFTY F64 /\ nltb (i_obj_val (sv_info t')) (nofZ 1) = true.
Proof.
  destruct (duo_ok fE iP iq iA il iu 2 1 brief [CSolve] fE iP iq iA il iu brief [CSolve; CSolve]
    (fun t t' => is_left (data_dec (w_data (sv_work t')) (w_data (sv_work t))) && is_left (set_dec (sv_settings t') (sv_settings t)) && is_left (f64_dec (i_obj_val (sv_info t)) (OSQP_INFTY F64)) && (st_warm_starting (sv_settings t) =? 0) &&
      (i_rho_updates (sv_info t') =? i_rho_updates (sv_info t)) && (i_status_val (sv_info t) =? OSQP_PRIMAL_INFEASIBLE_INACCURATE) && (i_status_val (sv_info t') =? OSQP_PRIMAL_INFEASIBLE_INACCURATE) &&
      (i_iter (sv_info t') =? i_iter (sv_info t)) && nltb (i_obj_val (sv_info t')) (nofZ 1))) as (t & t' & H1 & H2 & H); [vm_compute; reflexivity|].
  split_bool H. apply is_left_ok in H, B6, B5. bools. exists t, t'. auto 20.
Qed.
