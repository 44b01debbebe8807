(** What polishing computes, in exact arithmetic. *)
From Coq Require Import ZArith Reals List Bool Lia Lra String.
From Verif Require Import Num Arr ArrFacts RSum Csc CscSpec CscFacts CscFacts2 Scatter CscFacts3 CscFacts4 CscFacts5 Placed Vec VecFacts Types Kkt KktFacts KktFacts2 KktFacts3 KktSpec KktDense Linsys Scaling Validate Auxil Polish Api
  LinsysFacts LinsysSolve Inv RecSimp InvStep InvApi InvScale InvPolish InvSolve RealVec RealStep Frame FrameSolve ProbSpec ScaleReal Ldl LdlEnv QpSpec AdmmSpec PolishSpec PolishLin TermSpec TermFacts TermCheck.
Import ListNotations.
Open Scope Z_scope.

(** ** Vectors on the selected constraints *)
Lemma sum_rank (fl : list Z) (m : Z) (g : Z -> R) : 0 <= m -> zsum 0 (rank fl m) g = zsum 0 m (fun i => if selb fl i then g (rank fl i) else 0%R).
Proof.
  intros Hm. revert m Hm. apply natlike_ind; [reflexivity|]. intros m Hm IH. unfold Z.succ. rewrite CscFacts4.rank_succ by auto. rewrite (zsum_snoc 0 m) by auto. rewrite <- IH.
  destruct (selb fl m).
  - rewrite zsum_snoc by apply rank_nonneg. auto.
  - rewrite Z.add_0_r. lra.
Qed.
(** A vector whose entries from n on belong to the selected constraints, spread over all constraints. *)
Definition spread (fl : list Z) (n : Z) (v : Z -> R) : Z -> R := fun i => if selb fl i then v (n + rank fl i) else 0%R.
Lemma rank_pos fl m : 0 <= m -> rank fl m <> 0 -> exists i, 0 <= i < m /\ selb fl i = true.
Proof.
  intros Hm. pattern m. apply natlike_ind; [|intros j Hj IH|exact Hm].
  - intros H. exfalso. apply H. reflexivity.
  - unfold Z.succ. rewrite CscFacts4.rank_succ by lia. intros H. destruct (selb fl j) eqn:E; [exists j; split; [lia|auto]|]. destruct IH as (i & Hi & Hs); [lia|]. exists i. split; [lia|auto].
Qed.
Lemma rank_lt_m fl i m : 0 <= i < m -> selb fl i = true -> 0 <= rank fl i < rank fl m.
Proof. intros Hi Hs. split; [apply rank_nonneg|]. apply rank_lt; auto. Qed.

Section Red.
  Variables (d : data Rops) (fl : list Z) (Ared : csc Rops) (jz : Z) (jx : R).
  Hypothesis Hd : dok d.
  Hypothesis Hfl : zlen fl = d_m d.
  Hypothesis HA : csc_submatrix_byrows jz jx (d_A d) fl = Some Ared.
  Notation p := (qp_of d). Notation n := (d_n d). Notation m := (d_m d).
  Let WA : wf Ared /\ cm Ared = rank fl m /\ cn Ared = n.
  Proof.
    destruct Hd. destruct (csc_submatrix_byrows_spec (d_A d) jz jx fl) as (R' & ER & WR & HmR & HnR & _); auto; [lia|]. rewrite HA in ER. injection ER as <-. split; [auto|]. split; [rewrite HmR; congruence|congruence].
  Qed.

  Lemma red_mul (v : Z -> R) i : 0 <= i < m -> selb fl i = true -> zsum 0 n (fun j => dns Ared (rank fl i) j * v j)%R = Amul p v i.
  Proof.
    intros Hi Hs. destruct Hd. unfold Amul, mulR, qp_of. cbn [q_n q_A]. apply zsum_ext. intros j Hj.
    rewrite (csc_submatrix_byrows_dense (d_A d) jz jx fl Ared); auto; try lia. 
  Qed.
  Lemma red_tmul (v : Z -> R) j : 0 <= j < n -> zsum 0 (cm Ared) (fun k => dns Ared k j * v (n + k)%Z)%R = Atmul p (spread fl n v) j.
  Proof.
    intros Hj. destruct WA as (_ & -> & _). destruct Hd. rewrite sum_rank by lia. unfold Atmul, mulR, tr_, qp_of, spread. cbn [q_m q_A]. apply zsum_ext. intros i Hi.
    destruct (selb fl i) eqn:Es; [|ring]. rewrite (csc_submatrix_byrows_dense (d_A d) jz jx fl Ared); auto; lia.
  Qed.
  Lemma red_wf : wf Ared /\ cm Ared = rank fl m /\ cn Ared = n. Proof. exact WA. Qed.
End Red.

Ltac rlia := change (car Rops) with R in *; lia.
Section PolishReal.
  Variable E : Env Rops.
  Hypothesis EO : env_ok E.

  (** The flags and what they mean. *)
  Definition lo_w (w : work Rops) : Z -> Prop := on_lower (qp_of (w_data w)) (fun _ => 1%R) (rnth (w_z w)) (rnth (w_y w)).
  Definition up_w (w : work Rops) : Z -> Prop := on_upper (qp_of (w_data w)) (fun _ => 1%R) (rnth (w_z w)) (rnth (w_y w)).
  Definition bound_w (w : work Rops) (i : Z) : R := if znth 0 (flags_of w) i =? -1 then rnth (d_l (w_data w)) i else rnth (d_u (w_data w)) i.

  Lemma flag_cases (w : work Rops) i : dok (w_data w) -> 0 <= i < d_m (w_data w) ->
    (znth 0 (flags_of w) i = -1 /\ lo_w w i) \/ (znth 0 (flags_of w) i = 1 /\ up_w w i) \/ (znth 0 (flags_of w) i = 0 /\ ~ lo_w w i /\ ~ up_w w i).
  Proof.
    intros [] Hi. assert (EF : znth 0 (flags_of w) i = active_flag (rnth (w_z w) i) (rnth (d_l (w_data w)) i) (rnth (d_u (w_data w)) i) (rnth (w_y w) i)).
    { unfold flags_of. rewrite (znth_map 0 0) by (rewrite zlen_zseq; lia). rewrite znth_zseq by rlia. rewrite Z.add_0_l. unfold rnth. rewrite n0_R. reflexivity. }
    rewrite EF. unfold active_flag, lo_w, up_w, on_upper, on_lower, qp_of. cbn [q_l q_u]. cbn [nltb neqb nsub nopp Rops].
    set (z := rnth (w_z w) i). set (l := rnth (d_l (w_data w)) i). set (u := rnth (d_u (w_data w)) i). set (y := rnth (w_y w) i).
    destruct (Rltb (z - l)%R (- y)%R || Reqb l u) eqn:E1.
    - left. split; auto. apply orb_true_iff in E1 as [E1|E1]; [left; apply Rltb_iff in E1; lra|right]. unfold Reqb in E1. destruct (Req_EM_T l u); auto; discriminate.
    - apply orb_false_iff in E1 as [E1 E2]. assert (NL : ~ ((z - l < - (1 * y))%R \/ l = u)).
      { intros [X|X]; [|unfold Reqb in E2; destruct (Req_EM_T l u); [discriminate|contradiction]]. apply not_true_iff_false in E1. apply E1, Rltb_iff. lra. }
      right. destruct (Rltb (u - z)%R y) eqn:E3; [left|right].
      + apply Rltb_iff in E3. split; [auto|]. split; [auto|]. lra.
      + split; [auto|]. split; [auto|]. intros (_ & X). apply not_true_iff_false in E3. apply E3, Rltb_iff. lra.
  Qed.
  Lemma flag_sel (w : work Rops) i : selb (flags_of w) i = negb (znth 0 (flags_of w) i =? 0). Proof. reflexivity. Qed.

  Lemma form_rhs_real w (rhs : list R) : dok (w_data w) -> p_active_flags (w_pol w) = flags_of w ->
    rlen rhs = d_n (w_data w) + rank (flags_of w) (d_m (w_data w)) ->
    safe (@form_rhs_red Rops w rhs) (fun r : list R => rlen r = rlen rhs /\ (forall j, 0 <= j < d_n (w_data w) -> rnth r j = (- rnth (d_q (w_data w)) j)%R) /\
      (forall i, 0 <= i < d_m (w_data w) -> selb (flags_of w) i = true -> rnth r (d_n (w_data w) + rank (flags_of w) i) = bound_w w i)).
  Proof.
    intros Hd Hf Hr. pose proof (flag_cases w) as FC. destruct Hd as []. unfold form_rhs_red. rewrite Hf. set (n := d_n (w_data w)) in *. set (m := d_m (w_data w)) in *. set (fl := flags_of w) in *.
    assert (Hd : dok (w_data w)) by (constructor; auto). specialize (FC).
    assert (Lfl : zlen fl = m) by (unfold fl, flags_of; rewrite zlen_map, zlen_zseq; fold m; lia).
    pose proof (rank_nonneg fl m) as Hrk. change (car Rops) with R in *.
    loop_rule (fun t (r : list R) => rlen r = rlen rhs /\ forall j, 0 <= j < t -> rnth r j = (- rnth (d_q (w_data w)) j)%R) HR.
    destruct HR as (r1 & -> & L1 & V1); [lia|split; auto; intros; lia| |].
    { intros j r Hj (L & V). rewrite (zget_Some (@n0 Rops)) by rlia. rewrite zset_Some by rlia. eexists; split; [reflexivity|]. split; [rewrite zlen_upd; auto|].
      intros k Hk. unfold rnth at 1. rewrite znth_upd by rlia. destruct (Z.eqb_spec k j) as [->|]; [unfold rnth; rewrite n0_R; reflexivity|]. apply V. lia. }
    loop_rule (fun t (s : list R * Z) => rlen (fst s) = rlen rhs /\ snd s = rank fl t /\ (forall j, 0 <= j < n -> rnth (fst s) j = (- rnth (d_q (w_data w)) j)%R) /\
      forall i, 0 <= i < t -> selb fl i = true -> rnth (fst s) (n + rank fl i) = bound_w w i) HR.
    destruct HR as ([r2 c] & -> & L2 & _ & V2 & V3); [lia| | |].
    - cbn [fst snd]. split; [auto|]. split; [reflexivity|]. split; [auto|]. intros; lia.
    - intros j [r c] Hj (Lr & Hc & Vq & Vb). cbn [fst snd] in *. rewrite (zget_Some 0) by rlia. pose proof (CscFacts4.rank_succ fl j ltac:(lia)) as Hs.
      pose proof (rank_le fl (j + 1) m ltac:(lia)) as Hle. pose proof (rank_nonneg fl j) as Hn0.
      assert (HU : forall b, selb fl j = true -> b = bound_w w j -> rlen (upd r (Z.to_nat (n + c)) b) = rlen rhs /\ c + 1 = rank fl (j + 1) /\
         (forall k, 0 <= k < n -> rnth (upd r (Z.to_nat (n + c)) b) k = (- rnth (d_q (w_data w)) k)%R) /\
         (forall i, 0 <= i < j + 1 -> selb fl i = true -> rnth (upd r (Z.to_nat (n + c)) b) (n + rank fl i) = bound_w w i)).
      { intros b Hsel Hb. rewrite Hsel in Hs. split; [rewrite zlen_upd; auto|]. split; [lia|]. split.
        - intros k Hk. unfold rnth at 1. rewrite znth_upd by rlia. replace (k =? n + c) with false by rlia. apply Vq; auto.
        - intros i Hi Hsi. unfold rnth at 1. rewrite znth_upd by rlia. destruct (Z.eqb_spec (n + rank fl i) (n + c)) as [e|ne].
          + assert (i = j) as -> by (apply (rank_inj fl); auto; lia). auto.
          + apply Vb; auto. assert (i <> j) by (intros ->; lia). lia. }
      destruct (FC j Hd Hj) as [(Fj & _)|[(Fj & _)|(Fj & _)]]; fold fl in Fj; rewrite Fj; cbn [Z.eqb Pos.eqb].
      + assert (Hsel : selb fl j = true) by (unfold selb; rewrite Fj; reflexivity). rewrite Hsel in Hs.
        rewrite (zget_Some (@n0 Rops)) by rlia. rewrite zset_Some by rlia. eexists; split; [reflexivity|]. cbn [fst snd]. apply HU; auto. unfold bound_w. fold fl. rewrite Fj. cbn [Z.eqb Pos.eqb]. unfold rnth. rewrite n0_R. reflexivity.
      + assert (Hsel : selb fl j = true) by (unfold selb; rewrite Fj; reflexivity). rewrite Hsel in Hs.
        rewrite (zget_Some (@n0 Rops)) by rlia. rewrite zset_Some by rlia. eexists; split; [reflexivity|]. cbn [fst snd]. apply HU; auto. unfold bound_w. fold fl. rewrite Fj. cbn [Z.eqb Pos.eqb]. unfold rnth. rewrite n0_R. reflexivity.
      + assert (Hsel : selb fl j = false) by (unfold selb; rewrite Fj; reflexivity). rewrite Hsel in Hs.
        eexists; split; [reflexivity|]. cbn [fst snd]. split; [auto|]. split; [lia|]. split; [auto|]. intros i Hi Hsi. apply Vb; auto. assert (i <> j) by congruence. lia.
    - cbn [fst snd] in *. apply safe_ret. auto.
  Qed.

  (** ** Solving the reduced system *)
  Section Solve.
  Variables (w : work Rops) (Ared : csc Rops) (ls : linsys Rops) (sigma : R).
  Hypothesis Hd : dok (w_data w).
  Hypothesis HA : csc_submatrix_byrows (env_jz E) (env_jx E) (d_A (w_data w)) (flags_of w) = Some Ared.
  Hypothesis LO : pls_ok E ls (d_P (w_data w)) Ared sigma.
  Notation p := (qp_of (w_data w)). Notation n := (d_n (w_data w)). Notation m := (d_m (w_data w)). Notation fl := (flags_of w).
  Notation step := (newton p sigma (fun _ => 1%R) (fun _ => 1%R) (lo_w w) (up_w w)).
  Notation steps := (newtons p sigma (fun _ => 1%R) (fun _ => 1%R) (lo_w w) (up_w w)).

  Lemma flags_len : zlen fl = m.
  Proof. unfold flags_of. rewrite zlen_map, zlen_zseq. pose proof (do_m _ Hd). lia. Qed.

  (** b holds the right-hand side of the Newton equations at (x, y). *)
  Definition residual (x wv : Z -> R) (b : list R) : Prop :=
    (forall j, 0 <= j < n -> rnth b j = (- (q_q p j + Pmul p x j + Atmul p wv j))%R) /\
    (forall i, 0 <= i < m -> selb fl i = true -> rnth b (n + rank fl i) = (bound_w w i - Amul p x i)%R).

  Lemma solve_step (x wv : Z -> R) (b : list R) : solves E (ls_fac ls) -> rlen b = n + cm Ared -> residual x wv b ->
    safe (solve_linsys E ls b) (fun r : list R => rlen r = rlen b /\ step x wv (fun j => x j + rnth r j)%R (fun i => wv i + spread fl n (rnth r) i)%R).
  Proof.
    intros HS Lb (B1 & B2). pose proof Hd as []. destruct (red_wf (w_data w) fl Ared (env_jz E) (env_jx E) Hd flags_len HA) as (WA & HmA & HnA).
    eapply safe_weaken; [apply (polish_solve_exact E EO ls (d_P (w_data w)) Ared sigma); auto; change (car Rops) with R in *; lia|].
    cbv beta. intros r (Lr & E1 & E2). rewrite do_Pn in *. change (car Rops) with R in *. split; [auto|].
    assert (EA : forall i, 0 <= i < m -> selb fl i = true -> (Amul p (rnth r) i - sigma * 1 * spread fl n (rnth r) i = bound_w w i - Amul p x i)%R).
    { intros i Hi Hs. pose proof (rank_lt_m fl i m Hi Hs) as Hrk. rewrite <- B2 by auto. rewrite <- E2 by rlia. unfold spread. rewrite Hs. rewrite <- (red_mul (w_data w) fl Ared (env_jz E) (env_jx E) Hd flags_len HA) by auto. ring. }
    exists (rnth r), (spread fl n (rnth r)). split; [auto|]. split; [auto|]. split.
    - intros j Hj. rewrite <- B1 by auto. rewrite <- E1 by auto.
      rewrite (red_tmul (w_data w) fl Ared (env_jz E) (env_jx E) Hd flags_len HA) by auto. unfold Pmul, mulR, qp_of. cbn [q_n q_P]. ring.
    - split; [|split].
      + intros i Hi HL. destruct (flag_cases w i Hd Hi) as [(F & _)|[(F & F')|(F & F' & _)]]; [|destruct F'; contradiction|contradiction].
        assert (Hs : selb fl i = true) by (unfold selb; rewrite F; reflexivity). rewrite (EA i Hi Hs). unfold bound_w. rewrite F. reflexivity.
      + intros i Hi HL. destruct (flag_cases w i Hd Hi) as [(F & F')|[(F & F')|(F & _ & F')]]; [destruct HL; contradiction| |contradiction].
        assert (Hs : selb fl i = true) by (unfold selb; rewrite F; reflexivity). rewrite (EA i Hi Hs). unfold bound_w. rewrite F. reflexivity.
      + intros i Hi NL NU. destruct (flag_cases w i Hd Hi) as [(F & F')|[(F & F')|(F & _)]]; [contradiction..|]. unfold spread, selb. rewrite F. reflexivity.
  Qed.

  Lemma refine_real st (z b : list R) k : st_sigma st = sigma -> solves E (ls_fac ls) -> rlen z = n + cm Ared -> rlen b = n + cm Ared ->
    residual (fun _ => 0%R) (fun _ => 0%R) b -> steps k (rnth z) (spread fl n (rnth z)) ->
    safe (iterative_refinement E st w Ared ls z b) (fun r : list R => rlen r = rlen z /\ steps (Z.to_nat (Z.max 0 (st_polish_refine_iter st)) + k) (rnth r) (spread fl n (rnth r))).
  Proof.
    intros Hsg HS Lz Lb (B1 & B2) H0. pose proof Hd as []. destruct (red_wf (w_data w) fl Ared (env_jz E) (env_jx E) Hd flags_len HA) as (WA & HmA & HnA).
    unfold iterative_refinement. destruct (Z.leb_spec (st_polish_refine_iter st) 0) as [Hit|Hit].
    { apply safe_ret. split; [auto|]. rewrite Z.max_l by rlia. exact H0. }
    rewrite Z.max_r by rlia. pose proof do_Pt as (Hsq & Htr). pose proof (wf_m _ WA) as HmA0. change (car Rops) with R in *.
    assert (Z0 : forall j, Pmul p (fun _ => 0%R) j = 0%R /\ Amul p (fun _ => 0%R) j = 0%R /\ Atmul p (fun _ => 0%R) j = 0%R).
    { intros j. unfold Pmul, Amul, Atmul, mulR. repeat split; apply zsum_0; intros; ring. }
    loop_rule (fun t (s : list R * list R) => rlen (fst s) = rlen z /\ rlen (snd s) = rlen z /\ steps (Z.to_nat t + k) (rnth (fst s)) (spread fl n (rnth (fst s)))) HR.
    destruct HR as ([z9 rh9] & -> & L9 & _ & S9); [lia| | |].
    - cbn [fst snd]. split; auto. split; [rewrite zlen_zrep; lia|]. exact H0.
    - intros t [z1 rhs] Ht (L1 & L2 & HN). cbn [fst snd] in *.
      cut (safe (rhs0 <- vf_copy rhs b ;; z11 <- view z1 0 n ;; z2 <- view z1 n (cm Ared) ;; rhs1 <- view rhs0 0 n ;; rhs1 <- csc_Axpy_sym_triu (d_P (w_data w)) z11 rhs1 (nopp n1) n1 ;;
        rhs1 <- csc_Atxpy Ared z2 rhs1 (nopp n1) n1 ;; rhs2 <- view rhs0 n (cm Ared) ;; rhs2 <- csc_Axpy Ared z11 rhs2 (nopp n1) n1 ;; rhs0 <- view_write rhs0 0 n rhs1 ;; rhs0 <- view_write rhs0 n (cm Ared) rhs2 ;;
        rhs0 <- solve_linsys E ls rhs0 ;; z1 <- vf_plus z1 z1 rhs0 ;; Some (z1, rhs0))%opt (fun s => rlen (fst s) = rlen z /\ rlen (snd s) = rlen z /\ steps (Z.to_nat (t + 1) + k) (rnth (fst s)) (spread fl n (rnth (fst s))))).
      { intros (s2 & Es & HX). exists s2. split; [exact Es|exact HX]. }
      unfold vf_copy. eapply safe_bind; [apply (rs_v1 0%R); rsize|]. intros c0 (Lc & Vc). rbind z11 Lz1 Vz1. rbind z2 Lz2 Vz2. rbind r1 Lr1 Vr1. rbind r2 Lr2 Vr2. rbind r3 Lr3 Vr3. rbind r4 Lr4 Vr4. rbind r5 Lr5 Vr5. rbind r6 Lr6 Vr6. rbind r7 Lr7 Vr7.
      assert (HRes : residual (rnth z1) (spread fl n (rnth z1)) r7).
      { fix_R. split.
        - intros j Hj. rewrite Vr7 by rlia. replace (n <=? j) with false by rlia. cbn [andb]. rewrite Vr6 by rlia. replace ((0 <=? j) && (j <? 0 + n)) with true by rlia. rewrite Z.sub_0_r.
          rewrite Vr3, Vr2, Vr1, Vc by rlia. rewrite Z.add_0_l. change (znth 0%R b j) with (rnth b j). rewrite B1 by auto. destruct (Z0 j) as (-> & _ & ->).
          assert (EP : zsum 0 (cn (d_P (w_data w))) (fun j0 => (sdns (d_P (w_data w)) j j0 * rnth z11 j0)%R) = Pmul p (rnth z1) j).
          { unfold Pmul, mulR, qp_of. cbn [q_n q_P]. rewrite do_Pn. apply zsum_ext. intros i Hi. rewrite Vz1 by rlia. rewrite Z.add_0_l. reflexivity. }
          assert (ET : zsum 0 (cm Ared) (fun i => (dns Ared i j * rnth z2 i)%R) = Atmul p (spread fl n (rnth z1)) j).
          { rewrite <- (red_tmul (w_data w) fl Ared (env_jz E) (env_jx E) Hd flags_len HA) by auto. apply zsum_ext. intros i Hi. rewrite Vz2 by rlia. reflexivity. }
          rewrite EP, ET. ring.
        - intros i Hi Hs. pose proof (rank_lt_m fl i m Hi Hs) as Hrk. rewrite <- HmA in Hrk. rewrite Vr7 by rlia. replace ((n <=? n + rank fl i) && (n + rank fl i <? n + cm Ared)) with true by rlia.
          replace (n + rank fl i - n) with (rank fl i) by rlia. rewrite Vr5, Vr4, Vc by rlia. change (znth 0%R b (n + rank fl i)) with (rnth b (n + rank fl i)). rewrite B2 by auto. destruct (Z0 i) as (_ & -> & _).
          assert (EA : zsum 0 (cn Ared) (fun j => (dns Ared (rank fl i) j * rnth z11 j)%R) = Amul p (rnth z1) i).
          { rewrite <- (red_mul (w_data w) fl Ared (env_jz E) (env_jx E) Hd flags_len HA) by auto. rewrite HnA. apply zsum_ext. intros j Hj. rewrite Vz1 by rlia. rewrite Z.add_0_l. reflexivity. }
          rewrite EA. ring. }
      eapply safe_bind; [apply (solve_step (rnth z1) (spread fl n (rnth z1))); auto; change (car Rops) with R in *; lia|].
      intros r8 (L8 & HN8). unfold vf_plus. rbind z3 Lz3 Vz3. apply safe_ret. cbn [fst snd]. change (car Rops) with R in *. split; [lia|]. split; [lia|].
      replace (Z.to_nat (t + 1) + k)%nat with (S (Z.to_nat t + k)) by rlia. econstructor; [exact HN|].
      destruct HN8 as (dx & dw & D1 & D2 & D3). exists dx, dw. split.
      { intros j Hj. rewrite Vz3 by (cbn [q_n qp_of] in Hj; lia). exact (D1 j Hj). }
      split; [|exact D3].
      { intros i Hi. rewrite <- D2 by auto. unfold spread. destruct (selb fl i) eqn:Es; [|lra]. pose proof (rank_lt_m fl i m Hi Es). rewrite Vz3 by rlia. reflexivity. }
    - cbn [fst snd] in *. apply safe_ret. auto.
  Qed.
  End Solve.

  Lemma ypol_real st w (yred : list R) : wok st w -> p_active_flags (w_pol w) = flags_of w -> p_n_active (w_pol w) = rank (flags_of w) (d_m (w_data w)) ->
    rlen yred = rank (flags_of w) (d_m (w_data w)) ->
    safe (@get_ypol_from_yred Rops w yred) (fun r : list R => rlen r = d_m (w_data w) /\ forall i, 0 <= i < d_m (w_data w) -> rnth r i = if selb (flags_of w) i then rnth yred (rank (flags_of w) i) else 0%R).
  Proof.
    intros [Hd _ _ _ Hl] Hf Hn HL. assert (Lfl := flags_len w Hd). destruct Hd, Hl. unfold get_ypol_from_yred. rewrite Hf, Hn. set (fl := flags_of w) in *. set (m := d_m (w_data w)) in *.
    change (car Rops) with R in *. destruct (Z.eqb_spec (rank fl m) 0) as [En|En].
    { apply safe_ret. unfold vf_set_scalar. split; [rewrite zlen_map; auto|]. intros i Hi. unfold rnth at 1. rewrite (znth_map 0%R 0%R) by rlia. rewrite n0_R.
      destruct (selb fl i) eqn:Es; auto. pose proof (rank_lt_m fl i m Hi Es). lia. }
    rbind y0 L0 V0. change (car Rops) with R in *.
    loop_rule (fun t (s : list R * Z) => rlen (fst s) = m /\ snd s = rank fl t /\ forall i, 0 <= i < t -> rnth (fst s) i = if selb fl i then rnth yred (rank fl i) else 0%R) HR.
    destruct HR as ([r2 c] & -> & L2 & _ & V2); [auto| | |].
    - cbn [fst snd]. split; [lia|]. split; [reflexivity|]. intros; lia.
    - intros j [r c] Hj (Lr & Hc & Vr). cbn [fst snd] in *. rewrite (zget_Some 0) by lia. pose proof (CscFacts4.rank_succ fl j ltac:(lia)) as Hs.
      pose proof (rank_le fl (j + 1) m ltac:(lia)) as Hle. pose proof (rank_nonneg fl j).
      change (znth 0 fl j =? 0) with (znth 0 fl j =? 0). assert (ES : (znth 0 fl j =? 0) = negb (selb fl j)) by (unfold selb; rewrite negb_involutive; auto). rewrite ES. destruct (selb fl j) eqn:Es; cbn [negb].
      + rewrite (zget_Some (@n0 Rops)) by rlia. rewrite zset_Some by rlia. eexists; split; [reflexivity|]. cbn [fst snd]. rewrite zlen_upd. split; [auto|]. split; [lia|].
        intros i Hi. unfold rnth at 1. rewrite znth_upd by rlia. destruct (Z.eqb_spec i j) as [->|]; [rewrite Es; unfold rnth; rewrite n0_R, Hc; reflexivity|]. apply Vr. lia.
      + rewrite zset_Some by rlia. eexists; split; [reflexivity|]. cbn [fst snd]. rewrite zlen_upd. split; [auto|]. split; [lia|].
        intros i Hi. unfold rnth at 1. rewrite znth_upd by rlia. destruct (Z.eqb_spec i j) as [->|]; [rewrite Es; apply n0_R|]. apply Vr. lia.
    - cbn [fst snd] in *. eapply safe_weaken; [apply rs_from_raw; rlia|]. cbv beta. intros r (L3 & V3). change (car Rops) with R in *. split; [lia|]. intros i Hi. rewrite V3 by lia. apply V2. lia.
  Qed.

  (** ** Residuals of any point *)
  Section Res.
  Variables (st : settings Rops) (Q : qp) (c : R) (D Es : Z -> R).
  Definition cuty (d : data Rops) (y : Z -> R) : Z -> R := fun i => cut (rnth (d_l d) i) (rnth (d_u d) i) (y i).
  Lemma residuals_real (w : work Rops) (x y z : list R) U cu Du Eu : wok st w -> tunits st w Q c D Es ->
    rlen x = d_n (w_data w) -> rlen y = d_m (w_data w) -> rlen z = d_m (w_data w) ->
    scaled_qp cu Du Eu U (qp_of (w_data w)) -> (tr (st_scaling st) = true -> exists sc, w_scaling w = Some sc /\ sc_cinv sc = (/ cu)%R) -> (tr (st_scaling st) = false -> cu = 1%R) ->
    post (@residuals Rops st w x y z) (fun r => let '(pr, dr, p, dv, g, w3) := r in
      pr = ninf (d_m (w_data w)) (fun j => Amul Q (unx D (rnth x)) j - unz Es (rnth z) j)%R /\
      dr = ninf (d_n (w_data w)) (fun j => q_q Q j + Pmul Q (unx D (rnth x)) j + Atmul Q (uny c Es (rnth y)) j)%R /\
      p = objective U (unx Du (rnth x)) /\ dv = (- (/ 2) * quad U (unx Du (rnth x)) - support U (uny cu Eu (cuty (w_data w) (rnth y))))%R /\
      g = (quad U (unx Du (rnth x)) + lin U (unx Du (rnth x)) + support U (uny cu Eu (cuty (w_data w) (rnth y))))%R).
  Proof.
    intros HW HT Lx Ly Lz HU HUs HUn. unfold residuals. pose proof (do_m _ (wo_d _ _ HW)) as Hm0. pose proof (wo_len _ _ HW) as HL.
    eapply post_bindP with (P := fun r => let '(pr, w1) := r in wok st w1 /\ fixed w1 = fixed w /\
      pr = ninf (d_m (w_data w)) (fun j => Amul Q (unx D (rnth x)) j - unz Es (rnth z) j)%R).
    { destruct (d_m (w_data w) =? 0) eqn:Em; [apply Z.eqb_eq in Em|apply Z.eqb_neq in Em].
      - apply post_ret. split; [auto|]. split; [auto|]. rewrite Em. apply n0_R.
      - eapply post_weaken; [apply post_and; [apply prim_res_post|apply post_and; [apply safe_post, (prim_res_real st Q c D Es w x z HW HT Lx Lz)|apply safe_post, (prim_res_safe st w x z HW); rsize]]|].
        cbv beta zeta. intros [pr w1] (HP & (R1 & R2 & R3) & HK). cbn [fst snd] in *. decompose [and] HP. split; [eapply wok_fixed; eauto|]. auto. }
    intros [pr w1] (W1 & F1 & P1). assert (ED : w_data w1 = w_data w) by (unfold fixed, core in F1; congruence). pose proof (tun_keeps st Q c D Es _ _ F1 HT) as T1.
    rewrite <- ED in Lx, Ly, Lz.
    eapply post_bindP; [apply post_and; [apply dual_res_post|apply post_and; [apply safe_post, (dual_res_real st Q c D Es w1 x y W1 T1 Lx Ly)|apply safe_post, (dual_res_safe st w1 x y W1 Lx Ly)]]|].
    cbv beta zeta. intros [dr w2] (HP & (R1 & R2 & R3 & R4 & R5) & HK). cbn [fst snd] in *. decompose [and] HP. clear HP. assert (W2 : wok st w2) by (eapply wok_fixed; eauto). rewrite ED in *.
    assert (F2 : fixed w2 = fixed w) by congruence. assert (ED2 : w_data w2 = w_data w) by (unfold fixed, core in F2; congruence). assert (ES2 : w_scaling w2 = w_scaling w) by (unfold fixed, core in F2; congruence).
    rewrite <- ED2 in Lx, Ly, Lz, R2, HU. rewrite <- ES2 in HUs.
    eapply post_bindP; [apply safe_post, (obj_real st w2 x y U cu Du Eu W2 Lx Ly R2 HU HUs HUn)|].
    intros [[[p dv] g] w3] (C1 & C2 & C3 & _). apply post_ret. rewrite ED2 in C2, C3. auto.
  Qed.
  End Res.

  Lemma tiny_R : @tiny Rops = (/ 10 ^ 10)%R.
  Proof. unfold tiny. rewrite lit_R. change (powerRZ 10 (-10)) with (/ 10 ^ 10)%R. lra. Qed.
  Lemma successful_improves (pl : pol Rops) (i : info Rops) : polish_successful pl i = true <-> improves (i_prim_res i) (i_dual_res i) (p_prim_res pl) (p_dual_res pl).
  Proof.
    unfold polish_successful, improves. rewrite tiny_R. cbn [nltb Rops]. rewrite !orb_true_iff, !andb_true_iff, !Rltb_iff. tauto.
  Qed.

  (** (x, z, y) is what polishing makes of the iterate of s, in the units of the solver. *)
  Definition candidate (s : solver Rops) (x z y : Z -> R) : Prop :=
    (exists i, 0 <= i < d_m (w_data (sv_work s)) /\ (lo_w (sv_work s) i \/ up_w (sv_work s) i)) /\
    exists wv, recovered (qp_of (w_data (sv_work s))) (fun _ => 1%R) x wv z y /\
      (exact_ldl E -> newtons (qp_of (w_data (sv_work s))) (st_sigma (sv_settings s)) (fun _ => 1%R) (fun _ => 1%R) (lo_w (sv_work s)) (up_w (sv_work s))
        (S (Z.to_nat (st_polish_refine_iter (sv_settings s)))) x wv).
  Record polish_gives (Q : qp) (c : R) (D Es : Z -> R) (U : qp) (cu : R) (Du Eu : Z -> R) (s s' : solver Rops) : Prop := {
    pg_point : candidate s (rnth (w_x (sv_work s'))) (rnth (w_z (sv_work s'))) (rnth (w_y (sv_work s')));
    pg_pr : i_prim_res (sv_info s') = ninf (d_m (w_data (sv_work s))) (fun j => Amul Q (unx D (rnth (w_x (sv_work s')))) j - unz Es (rnth (w_z (sv_work s'))) j)%R;
    pg_dr : i_dual_res (sv_info s') = ninf (d_n (w_data (sv_work s))) (fun j => q_q Q j + Pmul Q (unx D (rnth (w_x (sv_work s')))) j + Atmul Q (uny c Es (rnth (w_y (sv_work s')))) j)%R;
    pg_rep : reported U cu Du Eu (sv_work s') (sv_info s');
    pg_acc : improves (i_prim_res (sv_info s)) (i_dual_res (sv_info s)) (i_prim_res (sv_info s')) (i_dual_res (sv_info s')) }.

  (** The four ways polishing can end; the exit code of osqp_solve is fl. *)
  Inductive polish_ends (Q : qp) (c : R) (D Es : Z -> R) (U : qp) (cu : R) (Du Eu : Z -> R) (s : solver Rops) (fl : Z) (s' : solver Rops) : Prop :=
  | pe_success : i_status_polish (sv_info s') = OSQP_POLISH_SUCCESS -> fl = 0 -> polish_gives Q c D Es U cu Du Eu s s' -> polish_ends Q c D Es U cu Du Eu s fl s'
  | pe_failed : forall x z y, i_status_polish (sv_info s') = OSQP_POLISH_FAILED -> fl = 0 -> candidate s x z y ->
      ~ improves (i_prim_res (sv_info s)) (i_dual_res (sv_info s)) (ninf (d_m (w_data (sv_work s))) (fun j => Amul Q (unx D x) j - unz Es z j)%R)
          (ninf (d_n (w_data (sv_work s))) (fun j => q_q Q j + Pmul Q (unx D x) j + Atmul Q (uny c Es y) j)%R) -> polish_ends Q c D Es U cu Du Eu s fl s'
  | pe_none : i_status_polish (sv_info s') = OSQP_POLISH_NO_ACTIVE_SET_FOUND -> fl = 0 -> (forall i, 0 <= i < d_m (w_data (sv_work s)) -> ~ lo_w (sv_work s) i /\ ~ up_w (sv_work s) i) ->
      polish_ends Q c D Es U cu Du Eu s fl s'
  | pe_error : i_status_polish (sv_info s') = OSQP_POLISH_LINSYS_ERROR -> fl = OSQP_NONCVX_ERROR ->
      (exact_ldl E -> (0 < st_sigma (sv_settings s))%R -> ~ psd (d_n (w_data (sv_work s))) (sdns (d_P (w_data (sv_work s))))) -> polish_ends Q c D Es U cu Du Eu s fl s'.

  Theorem polish_real (s : solver Rops) Q c D Es U cu Du Eu : Inv s -> tunits (sv_settings s) (sv_work s) Q c D Es ->
    scaled_qp cu Du Eu U (qp_of (w_data (sv_work s))) -> (tr (st_scaling (sv_settings s)) = true -> exists sc, w_scaling (sv_work s) = Some sc /\ sc_cinv sc = (/ cu)%R) -> (tr (st_scaling (sv_settings s)) = false -> cu = 1%R) ->
    post (polish E s) (fun r => polish_ends Q c D Es U cu Du Eu s (fst r) (snd r)).
  Proof.
    intros HI HT HU HUs HUn. pose proof (iv_w _ HI) as HW. pose proof (iv_stat _ HI) as HSt. pose proof (wo_d _ _ HW) as Hd. pose proof Hd as [].
    unfold polish. eapply post_bindP; [apply safe_post, (form_Ared_safe E (sv_settings s)); eauto|]. intros [pl Ared] (F1 & F2 & F3 & F4 & F5 & F6 & F7). cbn [fst snd] in *. rs.
    set (w := sv_work s) in *. set (st := sv_settings s) in *. set (n := d_n (w_data w)) in *. set (m := d_m (w_data w)) in *.
    pose proof (flags_len w Hd) as Lfl. fold m in Lfl.
    set (w1 := set_w_pol pl w).
    assert (HK1 : keeps st w w1).
    { subst w1. split; [reflexivity|]. pose proof (wo_len _ _ HW) as []. rewrite F3, F1, F2. lens_tac. }
    destruct (p_n_active pl =? 0) eqn:En0.
    { apply Z.eqb_eq in En0. apply post_ret. apply pe_none; auto. intros i Hi. fold w in Hi |- *. destruct (flag_cases w i Hd Hi) as [(Hf & _)|[(Hf & _)|(_ & Hf)]]; [| |auto];
        exfalso; pose proof (rank_lt_m (flags_of w) i m Hi ltac:(unfold selb; rewrite Hf; reflexivity)); lia. }
    destruct (init_polish_spec E EO (d_P (w_data w)) Ared st) as (res & -> & [(-> & ls & Hfac & HP)|(ls & -> & Hfac & HP)]); auto; try (change (car Rops) with R in *; lia).
    { apply post_ret. apply pe_error; auto. intros EX Hsg HPs. fold w in HPs. rewrite (pls_convex E ls (d_P (w_data w)) Ared (st_sigma st)) in Hfac; auto; [lia| |]; rewrite ?do_Pn; fold n; auto; try lia. }
    assert (Ef : flags_of w1 = flags_of w) by reflexivity.
    pose proof (rank_nonneg (flags_of w) m) as Hrk. pose proof (wok_keeps _ _ _ HW HK1) as HW1. pose proof do_m as Hm0. pose proof do_n as Hn0. fold m in Hm0. fold n in Hn0.
    assert (Fn : p_n_active pl = cm Ared) by lia. rewrite do_Pn in Hfac.
    assert (HSv : exact_ldl E -> solves E (ls_fac ls)).
    { intros EX. apply (pls_solves E ls (d_P (w_data w)) Ared (st_sigma st)); auto; rewrite ?do_Pn; fold n; try lia. }
    eapply post_bindP; [apply safe_post, (form_rhs_real w1); auto; rewrite zlen_zrep by (fold n; lia); rewrite F2, Ef; reflexivity|].
    intros rhs (Lr & V1 & V2). subst w1. rs_in V1. rs_in V2. rewrite Ef in V2. change (bound_w (set_w_pol pl w)) with (bound_w w) in V2. rewrite zlen_zrep in Lr by (change (car Rops) with R in *; lia). rewrite F2 in Lr. change (car Rops) with R in *. fold n m in V1, V2.
    assert (ZM : forall j, Pmul (qp_of (w_data w)) (fun _ => 0%R) j = 0%R /\ Amul (qp_of (w_data w)) (fun _ => 0%R) j = 0%R /\ Atmul (qp_of (w_data w)) (fun _ => 0%R) j = 0%R).
    { intros j. unfold Pmul, Amul, Atmul, mulR. repeat split; apply zsum_0; intros; ring. }
    assert (HRes : residual w (fun _ => 0%R) (fun _ => 0%R) rhs).
    { split; [intros j Hj; destruct (ZM j) as (-> & _ & ->); rewrite V1 by auto; unfold qp_of; cbn [q_q]; ring|intros i Hi Hs; destruct (ZM i) as (_ & -> & _); rewrite V2 by auto; ring]. }
    set (lo := lo_w w) in *. set (up := up_w w) in *. set (p := qp_of (w_data w)) in *. set (sg := st_sigma st) in *.
    eapply post_bindP with (P := fun ps : list R => rlen ps = n + cm Ared /\ (exact_ldl E -> newtons p sg (fun _ => 1%R) (fun _ => 1%R) lo up 1 (rnth ps) (spread (flags_of w) n (rnth ps)))).
    { eapply post_weaken; [apply post_and; [apply safe_post, (polish_solve_safe E EO ls (d_P (w_data w)) Ared sg rhs do_P F5 HP); change (car Rops) with R in *; lia|
        apply safe_post_if with (H := exact_ldl E); intros EX; apply (solve_step w Ared ls sg Hd F4 HP (fun _ => 0%R) (fun _ => 0%R) rhs (HSv EX)); auto; change (car Rops) with R in *; fold n; lia]|].
      cbv beta. intros ps (L & HN). change (car Rops) with R in *. split; [lia|]. intros EX. destruct (HN EX) as (_ & HN1). econstructor; [apply nw_0 with (x := fun _ => 0%R) (w := fun _ => 0%R); auto|].
      destruct HN1 as (dx & dw & D1 & D2 & D3). exists dx, dw. split; [intros j Hj; rewrite <- D1 by auto; lra|]. split; [intros i Hi; rewrite <- D2 by auto; fold n; lra|exact D3]. }
    intros ps (Lps & HN1).
    eapply post_bindP with (P := fun ps : list R => rlen ps = n + cm Ared /\ (exact_ldl E -> newtons p sg (fun _ => 1%R) (fun _ => 1%R) lo up (S (Z.to_nat (st_polish_refine_iter st))) (rnth ps) (spread (flags_of w) n (rnth ps)))).
    { change (iterative_refinement E st (set_w_pol pl w) Ared ls ps rhs) with (iterative_refinement E st w Ared ls ps rhs).
      eapply post_weaken; [apply post_and; [apply safe_post, (refine_safe E EO st w Ared ls ps rhs Hd F5 F7 HP); change (car Rops) with R in *; fold n; lia|
        apply safe_post_if with (H := exact_ldl E); intros EX; apply (refine_real w Ared ls sg Hd F4 HP st ps rhs 1 eq_refl (HSv EX)); auto; change (car Rops) with R in *; fold n; lia]|].
      cbv beta. intros ps2 (L & HN). change (car Rops) with R in *. split; [lia|]. intros EX. destruct (HN EX) as (_ & HN2). replace (S (Z.to_nat (st_polish_refine_iter st))) with (Z.to_nat (Z.max 0 (st_polish_refine_iter st)) + 1)%nat by lia. exact HN2. }
    clear ps Lps HN1. intros ps (Lps & HN).
    eapply post_bindP; [apply safe_post, (rs_view ps 0 n); lia|]. intros xv (Lxv & Vxv).
    eapply post_bindP; [apply safe_post, (rs_view ps n (p_n_active pl)); lia|]. intros yv (Lyv & Vyv).
    assert (LP : rlen (p_x pl) = n /\ rlen (p_z pl) = m /\ rlen (p_y pl) = m).
    { pose proof (wo_len _ _ HW) as []. rewrite F3. rs. auto. }
    destruct LP as (Lpx & Lpz & Lpy). unfold vf_copy at 1.
    eapply post_bindP; [apply safe_post, (rs_v1 0%R (p_x pl)); change (car Rops) with R in *; lia|]. intros x (Lx & Vx).
    eapply post_bindP; [apply safe_post, (rs_Axpy (d_A (w_data w)) x (p_z pl)); change (car Rops) with R in *; auto; lia|]. intros z0 (Lz0 & Vz0).
    eapply post_bindP; [apply safe_post, (ypol_real st (set_w_pol pl w)); [auto|exact F1|exact F2|rewrite Ef; rs; fold m; change (car Rops) with R in *; lia]|]. rs. rewrite Ef. intros y0 (Ly0 & Vy0). fold m in Ly0, Vy0. unfold vf_plus at 1.
    change (car Rops) with R in *.
    eapply post_bindP; [apply safe_post, (rs_v2 y0); change (car Rops) with R in *; lia|]. intros y1 (Ly1 & Vy1). unfold vf_ew_bound_vec.
    eapply post_bindP; [apply safe_post, (rs_v3 z0); change (car Rops) with R in *; lia|]. intros z (Lz & Vz). unfold vf_minus.
    eapply post_bindP; [apply safe_post, (rs_v2 y1); change (car Rops) with R in *; lia|]. intros y (Ly & Vy).
    assert (EX1 : forall j, 0 <= j < n -> rnth x j = rnth ps j).
    { intros j Hj. rewrite Vx by (change (car Rops) with R in *; lia). fold (rnth xv j). rewrite Vxv by lia. rewrite Z.add_0_l. auto. }
    assert (EZ0 : forall i, 0 <= i < m -> rnth z0 i = Amul p (rnth x) i).
    { intros i Hi. rewrite Vz0 by (change (car Rops) with R in *; lia). fix_R. unfold Amul, mulR, p, qp_of. cbn [q_n q_A]. rewrite do_An. fold n. ring. }
    assert (HRec : recovered p (fun _ => 1%R) (rnth x) (spread (flags_of w) n (rnth ps)) (rnth z) (rnth y)).
    { intros i Hi. change (q_m p) with m in Hi. rewrite Vy, Vz, Vy1, Vy0 by (change (car Rops) with R in *; lia). fix_R. rewrite EZ0 by auto. rewrite c_min_R, c_max_R.
      assert (ES : (if selb (flags_of w) i then rnth yv (rank (flags_of w) i) else 0%R) = spread (flags_of w) n (rnth ps) i).
      { unfold spread. destruct (selb (flags_of w) i) eqn:Esi; auto. pose proof (rank_lt_m (flags_of w) i m Hi Esi). rewrite Vyv by lia. auto. }
      rewrite ES. unfold clipR, p, qp_of. cbn [q_l q_u]. fold p.
      replace (1 * spread (flags_of w) n (rnth ps) i)%R with (spread (flags_of w) n (rnth ps) i) by ring. rewrite (Rplus_comm (Amul p (rnth x) i)). split; [reflexivity|rewrite Rmult_1_l; reflexivity]. }
    set (w2 := set_w_pol _ _).
    assert (HK2 : keeps st w w2).
    { subst w2. split; [reflexivity|]. assert (Lfa : zlen (p_active_flags pl) = m) by (rewrite F1; auto). pose proof (wo_len _ _ HW) as []. constructor; rs; change (car Rops) with R in *; fold n m; first [assumption|lia]. }
    assert (P2 : p_x (w_pol w2) = x /\ p_z (w_pol w2) = z /\ p_y (w_pol w2) = y /\ w_data w2 = w_data w /\ w_scaling w2 = w_scaling w) by (subst w2; rs; auto). destruct P2 as (Px & Pz & Py & Pd & Ps).
    clearbody w2. pose proof (wok_keeps _ _ _ HW HK2) as HW2.
    assert (HT2 : tunits st w2 Q c D Es) by (eapply tunits_same; [exact Pd|exact Ps|exact HT]).
    unfold update_info_polish, toc. rs. rewrite Px, Py, Pz.
    assert (Lx2 : rlen x = d_n (w_data w2)) by (rewrite Pd; fold n; change (car Rops) with R in *; lia).
    assert (Ly2 : rlen y = d_m (w_data w2)) by (rewrite Pd; fold m; change (car Rops) with R in *; lia).
    assert (Lz2 : rlen z = d_m (w_data w2)) by (rewrite Pd; fold m; change (car Rops) with R in *; lia).
    assert (HU2 : scaled_qp cu Du Eu U (qp_of (w_data w2))) by (rewrite Pd; exact HU).
    assert (HUs2 : tr (st_scaling st) = true -> exists sc, w_scaling w2 = Some sc /\ sc_cinv sc = (/ cu)%R) by (rewrite Ps; exact HUs).
    pose proof (post_and _ _ _ (residuals_post st w2 x y z) (residuals_real st Q c D Es w2 x y z U cu Du Eu HW2 HT2 Lx2 Ly2 Lz2 HU2 HUs2 HUn)) as HRR.
    change (sv_settings s) with st. destruct (residuals st w2 x y z) as [[[[[[pr dr] ob] dv] g] w3]|] eqn:ER; [|apply post_none]. destruct (HRR _ eq_refl) as ((A1 & A2 & A3 & A4 & A5) & C1 & C2 & C3 & C4 & C5). clear HRR. cbn [snd] in *. rs. rewrite A4, Px, Py, Pz.
    assert (HCa : candidate s (rnth x) (rnth z) (rnth y)).
    { split.
      { apply Z.eqb_neq in En0. destruct (rank_pos (flags_of w) m Hm0 ltac:(lia)) as (i & Hi & Hs). exists i. split; [exact Hi|]. fold w.
        destruct (flag_cases w i Hd Hi) as [(_ & Hf)|[(_ & Hf)|(Hf & _)]]; [auto|auto|]. unfold selb in Hs. rewrite Hf in Hs. discriminate. }
      exists (spread (flags_of w) n (rnth ps)). split; [exact HRec|]. intros EX. specialize (HN EX). clear - HN EX1 Hm0.
      inversion HN as [|k x' w' x'' w'' HN' (dx & dw & D1 & D2 & D3)]; subst. econstructor; [exact HN'|]. exists dx, dw. split; [|auto]. intros j Hj. rewrite EX1 by exact Hj. apply D1. exact Hj. }
    destruct (polish_successful _ _) eqn:EA.
    2:{ apply post_ret. cbn [snd fst]. eapply pe_failed; [rs; reflexivity|reflexivity|exact HCa|]. intros HIm. apply not_true_iff_false in EA. apply EA. apply successful_improves. rs. rewrite Pd in *. fold w m n in HIm, C1, C2. rewrite C1, C2. exact HIm. }
    apply successful_improves in EA. rs_in EA.
    assert (D3 : w_data w3 = w_data w) by (apply fixed_core, core_eq in A1 as (A1 & _); congruence).
    assert (L3 : rlen (w_x w3) = n /\ rlen (w_z w3) = m /\ rlen (w_y w3) = m).
    { unfold iter3 in A2. injection A2 as X1 X2 X3. rewrite X1, X2, X3. pose proof (wo_len _ _ HW2) as []. rewrite Pd in *. auto. }
    destruct L3 as (L31 & L32 & L33). unfold vf_copy.
    eapply post_bindP; [apply safe_post, (rs_v1 0%R (w_x w3) (fun v => v) x); change (car Rops) with R in *; lia|]. intros x3 (Lx3 & Vx3).
    eapply post_bindP; [apply safe_post, (rs_v1 0%R (w_z w3) (fun v => v) z); change (car Rops) with R in *; lia|]. intros z3 (Lz3 & Vz3).
    eapply post_bindP; [apply safe_post, (rs_v1 0%R (w_y w3) (fun v => v) y); change (car Rops) with R in *; lia|]. intros y3 (Ly3 & Vy3).
    assert (Ex3 : x3 = x) by (apply rlist_ext; auto; rewrite Lx3; auto). assert (Ez3 : z3 = z) by (apply rlist_ext; auto; rewrite Lz3; auto). assert (Ey3 : y3 = y) by (apply rlist_ext; auto; rewrite Ly3; auto). subst x3 z3 y3.
    apply post_ret. apply pe_success; [reflexivity|reflexivity|]. cbn [snd]. rewrite Pd in *. fold n m in C1, C2. constructor; rs; auto.
    - unfold reported. rs. unfold cutv. rs. rewrite D3. rewrite C3, C4, C5. unfold cuty. auto.
  Qed.
End PolishReal.
