(** Concrete cases for the theorems about the reduced KKT system. *)
From Coq Require Import ZArith Reals List Bool Lia Lra.
From Verif Require Import Num Arr ArrFacts RSum Csc CscSpec CscFacts CscExamples Vec VecFacts Types Inv InvStep RecSimp RealVec RealStep Frame Ldl LdlEnv QpSpec TermSpec TermFacts Reduced ReducedFacts SolveEx.
Import ListNotations.
Open Scope Z_scope.

Lemma ex_psd2 : psd 2 (fun i j => if i =? j then 2 else 1)%R.
Proof.
  intros v. unfold qform. rewrite !z2. change (0 =? 0) with true. change (1 =? 1) with true. change (0 =? 1) with false. change (1 =? 0) with false. cbv iota. pose proof (Rle_0_sqr (v 0)). pose proof (Rle_0_sqr (v 1)). pose proof (Rle_0_sqr (v 0%Z + v 1%Z)%R). unfold Rsqr in *. lra.
Qed.
Lemma ex_kkt : solves_kkt 2 1 (fun _ _ => 2)%R (fun i _ => if i =? 0 then 1 else 3)%R (fun i => if i =? 0 then 1 else 2)%R 1 (fun _ => 15)%R (fun i => if i =? 0 then 1 else 1)%R (fun _ => 1)%R (fun i => if i =? 0 then 0 else 4)%R.
Proof.
  split.
  - intros j Hj. unfold mv, mtv. rewrite z1, z2. change (0 =? 0) with true. change (1 =? 0) with false. cbv iota. lra.
  - intros i Hi. assert (H : i = 0 \/ i = 1) by lia. destruct H as [-> | ->]; unfold mv; rewrite z1; [change (0 =? 0) with true|change (1 =? 0) with false]; cbv iota; lra.
Qed.

(** P = 2, A = (1, 3)': with sigma = 1 and rho = (1, 2) the reduced matrix is 22. *)
Definition gP : csc Rops := yP 2.
Definition gA : csc Rops := yA 1 3.
Lemma gP_triu : triu gP. Proof. apply triub_ok. reflexivity. Qed.
Lemma gP_nodup : nodup_rows gP. Proof. apply nodupb_ok. reflexivity. Qed.
Lemma gA_nodup : nodup_rows gA. Proof. apply nodupb_ok. reflexivity. Qed.
(** a library that asks for one product, then for the stopping test at the exact solution *)
Definition gdcg : @dcg_oracle Rops := fun k b x tmp =>
  match k with O => (1, x, ([1%R], [1%R]), 0) | S _ => (2, [(rnth b 0 / 22)%R], ([1%R], [(rnth b 0 - 22 * (rnth b 0 / 22))%R]), 1) end.

Lemma g_rmat rho : rho 0 = 1%R -> rho 1 = 2%R -> rmat 2 (sdns gP) (dns gA) rho 1 0 0 = 22%R.
Proof.
  intros H0 H1. unfold rmat. rewrite z2. destruct (yA_d 1 3) as [D1 D2]. unfold gA, gP. rewrite D1, D2, H0, H1, (yP_d 2). cbn [Z.eqb]. ring.
Qed.

Lemma ex_cg : exists s, @init_linsys_mklcg Rops 0%R gP gA [1%R; 2%R] 1%R 1 20 10 (/ 2)%R false = Some s /\ cg_ok gP gA s /\ honest gP gA s gdcg /\ tmp_ok gP ([0], [0], [0], [0])%R /\
  exists b' s', @solve_linsys_mklcg Rops gdcg 5 gP gA s 0%R 0%R ([0], [0], [0], [0])%R [15; 1; 1]%R 1 = Some (2, b', s').
Proof.
  destruct (init_real gP gA (yP_wf 2) (yA_wf 1 3) eq_refl 0%R [1%R; 2%R] 1%R 20 10 (/ 2)%R false gP_nodup gA_nodup eq_refl) as (s & ES & OK & _ & SG & PO & RH & X0).
  assert (R0 : rnth (cg_rho s) 0 = 1%R) by (rewrite RH by (change (cm gA) with 2; lia); reflexivity).
  assert (R1 : rnth (cg_rho s) 1 = 2%R) by (rewrite RH by (change (cm gA) with 2; lia); reflexivity).
  exists s. split; [exact ES|]. split; [exact OK|].
  assert (HH : honest gP gA s gdcg).
  { intros k b x tmp x' mpre ppre it HE j Hj. change (cn gP) with 1 in *. assert (j = 0) as -> by lia. destruct k; [discriminate HE|]. injection HE as <- _ <- _. cbn [gdcg].
    change (cm gA) with 2. unfold mv. rewrite z1. rewrite SG, g_rmat by auto. unfold rnth. cbn. field. }
  split; [exact HH|]. split; [repeat split|].
  destruct OK as [O1 O2 O3 O4 O5 O6 O7]. change (cn gP) with 1 in *. change (cm gA) with 2 in *.
  unfold solve_linsys_mklcg. rewrite O1, O2, PO.
  change (@view (car Rops) [15%R; 1%R; 1%R] 0 1) with (Some [15%R]). change (@view (car Rops) [15%R; 1%R; 1%R] 1 2) with (Some [1%R; 1%R]). cbv beta iota.
  destruct (rhs_real gP gA (yA_wf 1 3) eq_refl (cg_rho s) [15%R] [1%R; 1%R] (cg_ywork s)) as (r3 & w3 & E3 & L3 & Lw & V3); auto. rewrite E3. cbv beta iota zeta. cbn [fst snd].
  change (1 =? 1) with true. cbv beta iota. unfold cg_compute_tolerance. change (1 =? 1) with true. cbv beta iota zeta.
  assert (HV : rnth r3 0 = 22%R).
  { rewrite V3 by (change (cn gP) with 1; lia). unfold mtv. change (cm gA) with 2. rewrite z2. destruct (yA_d 1 3) as [D1 D2]. unfold gA. rewrite D1, D2, R0, R1. change (rnth [15%R] 0) with 15%R. change (rnth [1%R; 1%R] 0) with 1%R. change (rnth [1%R; 1%R] 1) with 1%R. ring. }
  change (cn gP) with 1 in *. change (cm gA) with 2 in *.
  assert (HN : @vf_norm_inf Rops r3 = 22%R).
  { rewrite vnorm_ninf, L3. unfold ninf. change (zseq 0 1) with [0]. cbn [fold_right]. rewrite HV. rewrite Rabs_right by lra. apply Rmax_left. lra. }
  cbn [cg_loop gdcg]. change (car Rops) with R in *. rewrite O1, O4. change (@zlen R [1%R]) with 1. change (1 =? 1) with true. cbn [andb negb]. cbv beta iota.
  destruct (op_real gP gA (yP_wf 2) gP_triu (yA_wf 1 3) eq_refl (cg_rho s) (cg_sigma s) [1%R] [0%R] w3) as (v' & w' & EO & LO1 & LO2 & _); auto. rewrite EO. cbv beta iota. cbn [fst snd].
  rewrite ?O1. change (@zlen R [(rnth r3 0 / 22)%R]) with 1. change (@zlen R [(rnth r3 0 - 22 * (rnth r3 0 / 22))%R]) with 1. change (1 =? 1) with true. change (2 =? 1) with false. change (2 =? 2) with true. cbn [andb negb]. cbv beta iota.
  rewrite vnorm_ninf. change (rlen [(rnth r3 0 - 22 * (rnth r3 0 / 22))%R]) with 1. rewrite ni1. change (rnth [(rnth r3 0 - 22 * (rnth r3 0 / 22))%R] 0) with (rnth r3 0 - 22 * (rnth r3 0 / 22))%R. rewrite HN, HV, cg_tol_R, n1_R.
  replace (22 - 22 * (22 / 22))%R with 0%R by field. rewrite Rabs_R0.
  assert (T1 : @nltb Rops 22%R (/ 10 ^ 7)%R = false). { cbn [nltb Rops]. unfold Rltb. destruct (Rlt_dec _ _); auto. exfalso. simpl in *. lra. }
  rewrite T1. cbv beta iota.
  assert (T2 : @nltb Rops 0%R (@nmul Rops 22%R (cg_tol_fraction s)) = true).
  { cbn [nltb nmul Rops]. apply Rltb_iff. assert (HF : cg_tol_fraction s = (/ 2)%R).
    { revert ES. unfold init_linsys_mklcg. cbv zeta. cbn [negb]. destruct (vf_copy _ _); [|discriminate]. cbv beta iota. unfold cg_update_precond. cbn [cg_precond_type Z.eqb Pos.eqb].
      destruct (reduced_kkt_diagonal _ _ _ _ _ _); [|discriminate]. cbv beta iota. intros [= <-]. reflexivity. }
    rewrite HF. lra. }
  rewrite T2. cbv beta iota. cbn [Z.eqb Pos.eqb orb negb].
  assert (EV : @vf_copy Rops r3 [(22 / 22)%R] = Some [(22 / 22)%R]). { unfold vf_copy. rewrite v1_ok by (change (car Rops) with R; rewrite L3; reflexivity). reflexivity. } rewrite EV. cbv beta iota.
  destruct (rs_Axpy gA [(22 / 22)%R] [1%R; 1%R] 1%R 0%R (yA_wf 1 3)) as (z & EZ & LZ & _); [reflexivity|reflexivity|].
  rewrite n0_R. rewrite EZ. cbv beta iota. change (cm gA) with 2 in LZ.
  destruct (rs_view_write [15%R; 1%R; 1%R] 0 1 [(22 / 22)%R]) as (b1 & F1 & LB1 & _); [lia|lia|change (rlen [15%R; 1%R; 1%R]) with 3; lia|reflexivity|]. change (rlen [15%R; 1%R; 1%R]) with 3 in LB1. rewrite F1. cbv beta iota.
  destruct (rs_view_write b1 1 2 z) as (b2 & F2 & _); [lia|lia|lia|exact LZ|]. rewrite F2. cbv beta iota. eexists. eexists. reflexivity.
Qed.

Lemma ex_precond : exists s, @init_linsys_mklcg Rops 0%R exP exB [1%R; 2%R] 1%R 1 20 10 (/ 2)%R false = Some s /\ cg_ok exP exB s /\ precond_current exP exB s /\ cg_precond_type s = 1.
Proof.
  destruct (init_real exP exB (exP_wf _) (exB_wf _) eq_refl 0%R [1%R; 2%R] 1%R 20 10 (/ 2)%R false (exP_nodup _) (exB_nodup _) eq_refl) as (s & ES & OK & PC & _).
  exists s. split; [exact ES|]. split; [exact OK|]. split; [exact PC|]. clear OK PC. revert ES. unfold init_linsys_mklcg. cbv zeta. cbn [negb]. destruct (vf_copy _ _); [|discriminate]. cbv beta iota. unfold cg_update_precond. cbn [cg_precond_type Z.eqb Pos.eqb].
  destruct (reduced_kkt_diagonal _ _ _ _ _ _); [|discriminate]. cbv beta iota. intros [= <-]. reflexivity.
Qed.
