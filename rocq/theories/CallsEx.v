(** Runs in binary64 arithmetic that meet the hypotheses of the claims of MachineCalls.v, and two witnesses.  Not a model of any file. *)
From Coq Require Import ZArith List Bool Lia String SpecFloat.
From Verif Require Import Num Arr ArrFacts Csc CscSpec CscFacts CscExamples Vec Types Linsys Scaling Validate Auxil Polish Api LinsysFacts Inv InvApi ValidFacts InvUpd InvSetup History ExEnv Runs SetupClaims MachineSpec MachineClaims MachineEx MachineCalls.
Import ListNotations.
Open Scope Z_scope.

(** Calls that pass no arrays. *)
Definition plain (c : call F64) : bool := match c with CSolve | CCold | CUpdRho _ | CUpdSettings _ => true | _ => false end.
Lemma calls_reach cs : forall s0 s fls s', forallb plain cs = true -> reach fE s0 s -> calls fE cs s = Some (fls, s') -> reach fE s0 s'.
Proof.
  induction cs as [|c cs IH]; intros s0 s fls s' HP HR HC; cbn [calls forallb] in *; [injection HC as _ <-; exact HR|].
  apply andb_prop in HP. destruct HP as (H1 & H2). destruct (run fE c s) as [[f [| |s1]]|] eqn:Er; try discriminate. destruct (calls fE cs s1) as [[fls1 s2]|] eqn:Ec; [|discriminate]. injection HC as _ <-.
  apply (IH s0 s1 fls1 s2 H2); [|exact Ec]. apply (reach_S fE s0 s c f s1 HR); [|exact Er]. destruct c; cbn [plain args_ok] in *; first [exact I|discriminate].
Qed.
Definition there (P A : csc F64) (q l u : list F64) (m n : Z) (ust : settings F64) (s : solver F64) : Prop := lives fE P A (Some q) (Some l) (Some u) m n ust s.
Lemma there_ok P A q l u m n ust cs fls T : data_readable (Some P) (Some q) (Some A) (Some l) (Some u) m n -> forallb plain cs = true ->
  script fE g0 P q A l u m n ust cs fls (fun _ s => T s) = true -> exists s, there P A q l u m n ust s /\ T s = true.
Proof.
  intros HD HP HS. destruct (script_ok _ _ _ _ _ _ _ _ _ _ _ _ _ HS) as (s0 & g' & s & H1 & H2 & H3). clear HS. exists s. split; [|exact H3].
  exact (lives_intro fE P A _ _ _ m n ust s g0 s0 g' HD H1 (calls_reach cs s0 s0 fls s HP (reach_0 _ _) H2)).
Qed.
Definition feqb (a b : F64) : bool :=
  match a : spec_float, b : spec_float with
  | S754_finite x m e, S754_finite y k f => Bool.eqb x y && Pos.eqb m k && Z.eqb e f
  | S754_zero x, S754_zero y | S754_infinity x, S754_infinity y => Bool.eqb x y
  | S754_nan, S754_nan => true
  | _, _ => false
  end.
Lemma feqb_refl a : feqb a a = true.
Proof. destruct a as [[]|[]| |[] m e]; cbn; auto; rewrite Pos.eqb_refl, Z.eqb_refl; reflexivity. Qed.

(** A scaled solver after a solve, a point to start from, new bounds that are fine and new bounds that cross. *)
Definition px : list F64 := [nlit 7 (-1); nofZ 7].
Definition py : list F64 := [nofZ (-1); nlit 3 (-1); nofZ 0].
Definition lower : list F64 := [nofZ 2; nlit 1 (-1); nofZ 0].
Definition upper : list F64 := [nofZ 2; nofZ 1; nofZ 1].
Definition zero32 : solution F64 := mksolution (K := F64) [n0; n0] [n0; n0; n0] [n0; n0; n0] [n0; n0].
Lemma arg3 (a : list F64) : zlen a = 3 -> vec_arg 3 (Some a). Proof. intros H v [= <-]. lia. Qed.
Lemma arg2 (a : list F64) : zlen a = 2 -> vec_arg 2 (Some a). Proof. intros H v [= <-]. lia. Qed.
Lemma zero32_ok : solok 2 3 zero32. Proof. constructor; cbn; lia. Qed.
Definition solved_here (s : solver F64) : bool := (stat s =? OSQP_SOLVED) && is_scaled s.
Lemma f_there : exists s, there fP fA fq fl fu 3 2 fst0 s /\ solved_here s = true.
Proof. apply (there_ok fP fA fq fl fu 3 2 fst0 [CSolve] [0]); [exact fdata_readable|reflexivity|vm_compute; reflexivity]. Qed.
Definition accepts (v : Z) (q l u : option (list F64)) (s : solver F64) : bool := match osqp_update_data_vec fE (HSolver s) q l u with Some (fl, _) => fl =? v | None => false end.
Lemma f_vec : exists s, there fP fA fq fl fu 3 2 fst0 s /\ (solved_here s && accepts 0 (Some px) (Some lower) (Some upper) s && accepts OSQP_DATA_VALIDATION_ERROR None (Some upper) None s) = true.
Proof. apply (there_ok fP fA fq fl fu 3 2 fst0 [CSolve] [0]); [exact fdata_readable|reflexivity|vm_compute; reflexivity]. Qed.
Definition rho_code (v : Z) (r : F64) (s : solver F64) : bool := match osqp_update_rho fE (HSolver s) r with Some (fl, _) => fl =? v | None => false end.
Lemma f_rho : exists s, there fP fA fq fl fu 3 2 fst0 s /\ (solved_here s && rho_code 0 (nlit 1 9) s && rho_code 1 (nofZ 0) s) = true.
Proof. apply (there_ok fP fA fq fl fu 3 2 fst0 [CSolve] [0]); [exact fdata_readable|reflexivity|vm_compute; reflexivity]. Qed.
Definition set_code (v : Z) (o : option (settings F64)) (s : solver F64) : bool := match osqp_update_settings (HSolver s) o with Some (fl, _) => fl =? v | None => false end.
Lemma f_set : exists s, there fP fA fq fl fu 3 2 fst0 s /\ (solved_here s && set_code 0 (Some one_iter) s && set_code OSQP_SETTINGS_VALIDATION_ERROR (Some (set_st_max_iter 0 fst0)) s) = true.
Proof. apply (there_ok fP fA fq fl fu 3 2 fst0 [CSolve] [0]); [exact fdata_readable|reflexivity|vm_compute; reflexivity]. Qed.
Lemma f_pinf_there : exists s, there iP iA iq il iu 2 1 fst0 s /\ (stat s =? OSQP_PRIMAL_INFEASIBLE) = true.
Proof. apply (there_ok iP iA iq il iu 2 1 fst0 [CSolve] [0]); [exact idata_readable|reflexivity|vm_compute; reflexivity]. Qed.
Lemma isol_ok : solok 1 2 isol. Proof. constructor; cbn; lia. Qed.

(** Unscaled: new values for two entries of P, by position, and for all of A. *)
Definition mat_code (v : Z) Pn (s : solver F64) : bool := match osqp_update_data_mat fE (HSolver s) (Some [nofZ 5; nofZ 3]) (Some [0; 2]) Pn (Some [nofZ 1; nofZ 2; nofZ 1; nofZ 1]) None 0 with Some (fl, _) => fl =? v | None => false end.
Lemma f_mat : exists s, there fP fA fq fl fu 3 2 unscaled s /\
  mat_arg (nnz (d_P (D s))) 2 (Some [@nofZ F64 5; nofZ 3]) (Some [0; 2]) /\ mat_arg (nnz (d_A (D s))) 0 (Some [@nofZ F64 1; nofZ 2; nofZ 1; nofZ 1]) None /\
  (negb (is_scaled s) && mat_code 0 2 s && mat_code 1 4 s) = true.
Proof.
  destruct (there_ok fP fA fq fl fu 3 2 unscaled [] [] (fun s => (nnz (d_P (D s)) =? 3) && (nnz (d_A (D s)) =? 4) && (negb (is_scaled s) && mat_code 0 2 s && mat_code 1 4 s))) as (s & H1 & H2);
    [exact fdata_readable|reflexivity|vm_compute; reflexivity|].
  apply andb_prop in H2. destruct H2 as (H2 & H3). apply andb_prop in H2. destruct H2 as (H2 & H4). apply Z.eqb_eq in H2. apply Z.eqb_eq in H4. exists s. split; [exact H1|]. split; [|split; [|exact H3]].
  - rewrite H2. intros _. cbv zeta. replace (2 =? 0) with false by reflexivity. split; [intros v [= <-]; cbn; lia|]. intros d [= <-]. split; [cbn; lia|]. intros j Hj. assert (Hc : j = 0 \/ j = 1) by lia. destruct Hc as [->| ->]; (split; [vm_compute; discriminate|vm_compute; reflexivity]).
  - rewrite H4. intros _. cbv zeta. replace (0 =? 0) with true by reflexivity. split; [intros v [= <-]; cbn; lia|discriminate].
Qed.

(** Two solvers with one problem and different histories. *)
Lemma f_two : exists s t, there fP fA fq fl fu 3 2 fst0 s /\ there fP fA fq fl fu 3 2 fst0 t /\ D t = D s /\ SC t = SC s /\ is_scaled t = is_scaled s /\ feqb (hd0 (X t)) (hd0 (X s)) = false.
Proof.
  destruct (script_ok fE g0 fP fq fA fl fu 3 2 fst0 [CSolve] [0] (fun _ s => negb (feqb (hd0 (X s)) n0))) as (s0 & g' & s1 & K1 & K2 & K3); [vm_compute; reflexivity|].
  pose proof (calls_reach [CSolve] s0 s0 [0] s1 eq_refl (reach_0 _ _) K2) as R1.
  assert (L1 : there fP fA fq fl fu 3 2 fst0 s1) by exact (lives_intro fE fP fA _ _ _ 3 2 fst0 s1 g0 s0 g' fdata_readable K1 R1).
  destruct (call_cold fE fE_ok MM_F64 _ _ _ _ _ _ _ _ _ L1) as (t & _ & L2 & HX & _ & _ & HS & (HD & HSC & _)).
  exists s1, t. split; [exact L1|]. split; [exact L2|]. split; [exact HD|]. split; [exact HSC|]. split; [unfold is_scaled; rewrite HS; reflexivity|].
  rewrite HX. change (hd0 (filled 2 n0)) with (@n0 F64). destruct (hd0 (X s1)) as [[]|[]| |[] mm e]; try reflexivity. discriminate K3.
Qed.

(** Witnesses: a point given to osqp_warm_start and read back with osqp_get_solution differs in the last bit; the certificate osqp_get_solution hands out
    differs in the last bit from the one osqp_solve left in the solution structure. *)
Lemma f_round_trip : exists s s1 s2 o, there fP fA fq fl fu 3 2 fst0 s /\ osqp_warm_start (HSolver s) (Some px) None = Some (0, HSolver s1) /\
  osqp_get_solution (HSolver s1) (Some zero32) = Some (0, HSolver s2, Some o) /\ so_x o <> px.
Proof.
  destruct (there_ok fP fA fq fl fu 3 2 fst0 [] [] (fun s => match osqp_warm_start (HSolver s) (Some px) None with Some (0, HSolver s1) =>
    match osqp_get_solution (HSolver s1) (Some zero32) with Some (0, HSolver s2, Some o) => negb (feqb (nth 1 (so_x o) n0) (nth 1 px n0)) | _ => false end | _ => false end)) as (s & H1 & H2);
    [exact fdata_readable|reflexivity|vm_compute; reflexivity|].
  exists s. destruct (osqp_warm_start (HSolver s) (Some px) None) as [[[| |] [| |s1]]|] eqn:E1; try discriminate H2. exists s1.
  destruct (osqp_get_solution (HSolver s1) (Some zero32)) as [[[[| |] [| |s2]] [o|]]|] eqn:E2; try discriminate H2. exists s2, o. split; [exact H1|]. split; [reflexivity|]. split; [reflexivity|].
  intros He. rewrite He, feqb_refl in H2. discriminate H2.
Qed.
Definition jl : list F64 := [nlit 7 (-1); nofZ (-2)].
Definition ju : list F64 := [nofZ 200; nofZ 0].
Lemma jdata_readable : data_readable (Some iP) (Some iq) (Some iA) (Some jl) (Some ju) 2 1.
Proof.
  constructor; try (intros v [= <-]; unfold zlen; cbn; lia); try (intros _; eexists; split; [reflexivity|unfold zlen; cbn; lia]).
  - intros P [= <-]. apply wfb_ok. vm_compute. reflexivity.
  - intros A [= <-]. apply wfb_ok. vm_compute. reflexivity.
Qed.
Lemma f_cert_differs : exists s o s1 o1, there iP iA iq jl ju 2 1 fst0 s /\ stat s = OSQP_PRIMAL_INFEASIBLE /\ sv_solution s = Some o /\
  osqp_get_solution (HSolver s) (Some isol) = Some (0, HSolver s1, Some o1) /\ so_prim_inf_cert o1 <> so_prim_inf_cert o.
Proof.
  destruct (there_ok iP iA iq jl ju 2 1 fst0 [CSolve] [0] (fun s => (stat s =? OSQP_PRIMAL_INFEASIBLE) && match sv_solution s with Some o =>
    match osqp_get_solution (HSolver s) (Some isol) with Some (0, HSolver s2, Some o1) => negb (feqb (hd0 (so_prim_inf_cert o1)) (hd0 (so_prim_inf_cert o))) | _ => false end | _ => false end)) as (s & H1 & H2);
    [exact jdata_readable|reflexivity|vm_compute; reflexivity|].
  apply andb_prop in H2. destruct H2 as (H2 & H3). apply Z.eqb_eq in H2. exists s. destruct (sv_solution s) as [o|]; [|discriminate H3]. exists o.
  destruct (osqp_get_solution (HSolver s) (Some isol)) as [[[[| |] [| |s2]] [o1|]]|] eqn:E2; try discriminate H3. exists s2, o1. split; [exact H1|]. split; [exact H2|]. split; [reflexivity|]. split; [reflexivity|].
  intros He. rewrite He, feqb_refl in H3. discriminate H3.
Qed.
