(** Solutions that move with the data: along a differentiable family of problems and of their solutions, the derivatives satisfy the differentiated optimality conditions. *)
From Coq Require Import ZArith Reals List Bool Lia Lra.
From Verif Require Import Num Arr ArrFacts RSum CscFacts RealVec RealStep QpSpec DerivSpec.
Open Scope Z_scope.
Local Open Scope R_scope.

(** [p t] is the problem and (xs t, ys t) a solution of it, for every t near 0; all are differentiable at t = 0, with derivatives [dp], x', y'.  Equalities
    stay equalities and at t = 0 an inequality with multiplier 0 is not active. *)
Record solution_path (p : R -> qp) (xs ys : R -> Z -> R) (dp : qp) (x' y' : Z -> R) : Prop := {
  sp_n : forall t, q_n (p t) = q_n dp;
  sp_m : forall t, q_m (p t) = q_m dp;
  sp_sym : forall t, symmetric (p t);
  sp_P : forall i j, derivable_pt_lim (fun t => q_P (p t) i j) 0 (q_P dp i j);
  sp_A : forall i j, derivable_pt_lim (fun t => q_A (p t) i j) 0 (q_A dp i j);
  sp_q : forall j, derivable_pt_lim (fun t => q_q (p t) j) 0 (q_q dp j);
  sp_l : forall i, derivable_pt_lim (fun t => q_l (p t) i) 0 (q_l dp i);
  sp_u : forall i, derivable_pt_lim (fun t => q_u (p t) i) 0 (q_u dp i);
  sp_x : forall j, (0 <= j < q_n dp)%Z -> derivable_pt_lim (fun t => xs t j) 0 (x' j);
  sp_y : forall i, (0 <= i < q_m dp)%Z -> derivable_pt_lim (fun t => ys t i) 0 (y' i);
  sp_kkt : exists del, 0 < del /\ forall t, Rabs t < del -> kkt (p t) (xs t) (Amul (p t) (xs t)) (ys t);
  sp_eq : exists del, 0 < del /\ forall t i, Rabs t < del -> (0 <= i < q_m dp)%Z -> is_eq (p 0) i = true -> q_l (p t) i = q_u (p t) i;
  sp_strict : forall i, (0 <= i < q_m dp)%Z -> is_eq (p 0) i = false -> ys 0 i = 0 -> q_l (p 0) i < Amul (p 0) (xs 0) i < q_u (p 0) i }.

Lemma lim_zsum n (f : Z -> R -> R) (f' : Z -> R) : (forall i, (0 <= i < n)%Z -> derivable_pt_lim (f i) 0 (f' i)) ->
  derivable_pt_lim (fun t => zsum 0 n (fun i => f i t)) 0 (zsum 0 n f').
Proof.
  intros H. destruct (Z_lt_dec n 0) as [Hn|Hn].
  { rewrite zsum_nil by lia. apply (derivable_pt_lim_ext (fct_cte 0)); [|apply derivable_pt_lim_const]. intros t. unfold fct_cte. rewrite zsum_nil by lia. auto. }
  assert (HG : forall k, (0 <= k)%Z -> (k <= n)%Z -> derivable_pt_lim (fun t => zsum 0 k (fun i => f i t)) 0 (zsum 0 k f')); [|apply HG; lia].
  apply (natlike_ind (fun k => (k <= n)%Z -> derivable_pt_lim (fun t => zsum 0 k (fun i => f i t)) 0 (zsum 0 k f'))).
  - intros _. rewrite zsum_nil by lia. apply (derivable_pt_lim_ext (fct_cte 0)); [|apply derivable_pt_lim_const]. intros t. unfold fct_cte. rewrite zsum_nil by lia. auto.
  - intros k Hk IH Hkn. unfold Z.succ in *. rewrite zsum_snoc by lia.
    apply (derivable_pt_lim_ext (fun t => zsum 0 k (fun i => f i t) + f k t)); [intros t; rewrite zsum_snoc by lia; auto|].
    apply (derivable_pt_lim_plus (fun t => zsum 0 k (fun i => f i t)) (f k)); [apply IH; lia|apply H; lia].
Qed.
Lemma lim_mul (f g : R -> R) a b : derivable_pt_lim f 0 a -> derivable_pt_lim g 0 b -> derivable_pt_lim (fun t => f t * g t) 0 (a * g 0 + f 0 * b).
Proof. intros H1 H2. apply (derivable_pt_lim_mult f g 0 a b H1 H2). Qed.
Lemma lim_add (f g : R -> R) a b : derivable_pt_lim f 0 a -> derivable_pt_lim g 0 b -> derivable_pt_lim (fun t => f t + g t) 0 (a + b).
Proof. intros H1 H2. apply (derivable_pt_lim_plus f g 0 a b H1 H2). Qed.
Lemma lim_sub (f g : R -> R) a b : derivable_pt_lim f 0 a -> derivable_pt_lim g 0 b -> derivable_pt_lim (fun t => f t - g t) 0 (a - b).
Proof. intros H1 H2. apply (derivable_pt_lim_minus f g 0 a b H1 H2). Qed.

(** A function that is constantly zero near 0 has derivative 0 there. *)
Lemma lim_zero (f : R -> R) a : derivable_pt_lim f 0 a -> (exists del, 0 < del /\ forall t, Rabs t < del -> f t = 0) -> a = 0.
Proof.
  intros H (del & Hd & Hz). destruct (Req_dec a 0) as [|Ha]; auto. exfalso. destruct (H (Rabs a) (Rabs_pos_lt a Ha)) as ([e He] & HE). cbn [pos] in HE.
  set (h := Rmin e del / 2). assert (0 < Rmin e del) by (apply Rmin_glb_lt; auto). pose proof (Rmin_l e del). pose proof (Rmin_r e del).
  assert (Hh : 0 < h) by (unfold h; lra). specialize (HE h). rewrite (Rabs_right h) in HE by lra. rewrite (Hz (0 + h)), (Hz 0) in HE.
  - replace ((0 - 0) / h - a) with (- a) in HE by (field; lra). rewrite Rabs_Ropp in HE. specialize (HE ltac:(lra) ltac:(unfold h; lra)). lra.
  - rewrite Rabs_R0. lra.
  - rewrite Rplus_0_l, Rabs_right by lra. unfold h. lra.
Qed.
(** A differentiable function keeps its sign near 0. *)
Lemma lim_neg (f : R -> R) a : derivable_pt_lim f 0 a -> f 0 < 0 -> exists del, 0 < del /\ forall t, Rabs t < del -> f t < 0.
Proof.
  intros H H0. assert (HC : continuity_pt f 0) by (apply derivable_continuous_pt; exists a; exact H).
  destruct (HC (- f 0) ltac:(lra)) as (e & He & HE). exists e. split; auto. intros t Ht. destruct (Req_dec t 0) as [->|Hne]; auto.
  specialize (HE t). cbn in HE. unfold R_dist in HE. rewrite Rminus_0_r in HE. specialize (HE ltac:(split; [split; [exact I|congruence]|auto])). unfold Rabs in HE. destruct (Rcase_abs _); lra.
Qed.
Lemma near_and (Q1 Q2 : R -> Prop) : (exists d, 0 < d /\ forall t, Rabs t < d -> Q1 t) -> (exists d, 0 < d /\ forall t, Rabs t < d -> Q2 t) -> exists d, 0 < d /\ forall t, Rabs t < d -> Q1 t /\ Q2 t.
Proof.
  intros (d1 & P1 & H1) (d2 & P2 & H2). exists (Rmin d1 d2). split; [apply Rmin_glb_lt; auto|]. intros t Ht. pose proof (Rmin_l d1 d2). pose proof (Rmin_r d1 d2). split; [apply H1|apply H2]; lra.
Qed.
Lemma near_imp (Q1 Q2 : R -> Prop) : (forall t, Q1 t -> Q2 t) -> (exists d, 0 < d /\ forall t, Rabs t < d -> Q1 t) -> exists d, 0 < d /\ forall t, Rabs t < d -> Q2 t.
Proof. intros H (d & P & HH). exists d. split; auto. Qed.

Section Path.
  Variables (p : R -> qp) (xs ys : R -> Z -> R) (dp : qp) (x' y' : Z -> R).
  Hypothesis SP : solution_path p xs ys dp x' y'.

  Lemma path_direction : direction (p 0) dp.
  Proof.
    constructor.
    - symmetry. apply (sp_n _ _ _ _ _ _ SP).
    - symmetry. apply (sp_m _ _ _ _ _ _ SP).
    - intros i j. apply (uniqueness_limite (fun t => q_P (p t) i j) 0); [apply (sp_P _ _ _ _ _ _ SP)|].
      apply (derivable_pt_lim_ext (fun t => q_P (p t) j i)); [intros t; apply (sp_sym _ _ _ _ _ _ SP)|apply (sp_P _ _ _ _ _ _ SP)].
    - intros i Hi He. rewrite (sp_m _ _ _ _ _ _ SP) in Hi. apply Rminus_diag_uniq. apply (lim_zero (fun t => q_l (p t) i - q_u (p t) i)).
      + apply lim_sub; [apply (sp_l _ _ _ _ _ _ SP)|apply (sp_u _ _ _ _ _ _ SP)].
      + destruct (sp_eq _ _ _ _ _ _ SP) as (d & Hd & HE). exists d. split; auto. intros t Ht. rewrite (HE t i Ht Hi He). lra.
  Qed.

  Lemma path_Amul i : derivable_pt_lim (fun t => Amul (p t) (xs t) i) 0 (Amul (p 0) x' i + Amul dp (xs 0) i).
  Proof.
    apply (derivable_pt_lim_ext (fun t => zsum 0 (q_n dp) (fun j => q_A (p t) i j * xs t j))); [intros t; unfold Amul, mulR; rewrite (sp_n _ _ _ _ _ _ SP); auto|].
    replace (Amul (p 0) x' i + Amul dp (xs 0) i) with (zsum 0 (q_n dp) (fun j => q_A dp i j * xs 0 j + q_A (p 0) i j * x' j)).
    - apply (lim_zsum (q_n dp) (fun j t => q_A (p t) i j * xs t j)). intros j Hj. apply lim_mul; [apply (sp_A _ _ _ _ _ _ SP)|apply (sp_x _ _ _ _ _ _ SP); auto].
    - rewrite zsum_plus. unfold Amul, mulR. rewrite (sp_n _ _ _ _ _ _ SP). ring.
  Qed.
  Lemma path_Pmul i : derivable_pt_lim (fun t => Pmul (p t) (xs t) i) 0 (Pmul (p 0) x' i + Pmul dp (xs 0) i).
  Proof.
    apply (derivable_pt_lim_ext (fun t => zsum 0 (q_n dp) (fun j => q_P (p t) i j * xs t j))); [intros t; unfold Pmul, mulR; rewrite (sp_n _ _ _ _ _ _ SP); auto|].
    replace (Pmul (p 0) x' i + Pmul dp (xs 0) i) with (zsum 0 (q_n dp) (fun j => q_P dp i j * xs 0 j + q_P (p 0) i j * x' j)).
    - apply (lim_zsum (q_n dp) (fun j t => q_P (p t) i j * xs t j)). intros j Hj. apply lim_mul; [apply (sp_P _ _ _ _ _ _ SP)|apply (sp_x _ _ _ _ _ _ SP); auto].
    - rewrite zsum_plus. unfold Pmul, mulR. rewrite (sp_n _ _ _ _ _ _ SP). ring.
  Qed.
  Lemma path_Atmul j : derivable_pt_lim (fun t => Atmul (p t) (ys t) j) 0 (Atmul (p 0) y' j + Atmul dp (ys 0) j).
  Proof.
    apply (derivable_pt_lim_ext (fun t => zsum 0 (q_m dp) (fun i => q_A (p t) i j * ys t i))); [intros t; unfold Atmul, mulR, tr_; rewrite (sp_m _ _ _ _ _ _ SP); auto|].
    replace (Atmul (p 0) y' j + Atmul dp (ys 0) j) with (zsum 0 (q_m dp) (fun i => q_A dp i j * ys 0 i + q_A (p 0) i j * y' i)).
    - apply (lim_zsum (q_m dp) (fun i t => q_A (p t) i j * ys t i)). intros i Hi. apply lim_mul; [apply (sp_A _ _ _ _ _ _ SP)|apply (sp_y _ _ _ _ _ _ SP); auto].
    - rewrite zsum_plus. unfold Atmul, mulR, tr_. rewrite (sp_m _ _ _ _ _ _ SP). ring.
  Qed.

  Lemma path_tangent : tangent (p 0) dp (xs 0) (ys 0) x' y'.
  Proof.
    pose proof (sp_kkt _ _ _ _ _ _ SP) as NK.
    constructor; intros i Hi; [rewrite (sp_n _ _ _ _ _ _ SP) in Hi|rewrite (sp_m _ _ _ _ _ _ SP) in Hi..].
    - apply (lim_zero (fun t => Pmul (p t) (xs t) i + q_q (p t) i + Atmul (p t) (ys t) i)).
      + replace (Pmul (p 0) x' i + Pmul dp (xs 0) i + q_q dp i + Atmul (p 0) y' i + Atmul dp (ys 0) i) with ((Pmul (p 0) x' i + Pmul dp (xs 0) i + q_q dp i) + (Atmul (p 0) y' i + Atmul dp (ys 0) i)) by ring.
        apply lim_add; [apply lim_add|]; [apply path_Pmul|apply (sp_q _ _ _ _ _ _ SP)|apply path_Atmul].
      + eapply near_imp; [|exact NK]. cbv beta. intros t [K1 _ _]. apply K1. rewrite (sp_n _ _ _ _ _ _ SP). auto.
    - intros Hy. apply Rminus_diag_uniq. apply (lim_zero (fun t => Amul (p t) (xs t) i - q_l (p t) i)).
      + apply lim_sub; [apply path_Amul|apply (sp_l _ _ _ _ _ _ SP)].
      + eapply near_imp; [|apply near_and; [exact NK|apply (lim_neg (fun t => ys t i) _ (sp_y _ _ _ _ _ _ SP i Hi) Hy)]]. cbv beta. intros t ([_ _ K3] & Hn).
        destruct (K3 i) as (_ & _ & HL); [rewrite (sp_m _ _ _ _ _ _ SP); auto|]. rewrite (HL Hn). ring.
    - intros Hy. apply Rminus_diag_uniq. apply (lim_zero (fun t => Amul (p t) (xs t) i - q_u (p t) i)).
      + apply lim_sub; [apply path_Amul|apply (sp_u _ _ _ _ _ _ SP)].
      + eapply near_imp; [|apply near_and; [exact NK|apply (lim_neg (fun t => 0 - ys t i) (0 - y' i))]].
        * cbv beta. intros t ([_ _ K3] & Hn). destruct (K3 i) as (_ & HU & _); [rewrite (sp_m _ _ _ _ _ _ SP); auto|]. rewrite HU by lra. ring.
        * apply lim_sub; [apply derivable_pt_lim_const|apply (sp_y _ _ _ _ _ _ SP i Hi)].
        * lra.
    - intros He. apply Rminus_diag_uniq. apply (lim_zero (fun t => Amul (p t) (xs t) i - q_u (p t) i)).
      + apply lim_sub; [apply path_Amul|apply (sp_u _ _ _ _ _ _ SP)].
      + destruct (sp_eq _ _ _ _ _ _ SP) as (de & Hde & HE). eapply near_imp; [|apply near_and; [exact NK|exists de; split; [exact Hde|]; intros t Ht; exact (HE t i Ht Hi He)]].
        cbv beta. intros t ([_ _ K3] & Heq). destruct (K3 i) as (HB & _ & _); [rewrite (sp_m _ _ _ _ _ _ SP); auto|]. lra.
    - intros He Hy. destruct (sp_strict _ _ _ _ _ _ SP i Hi He Hy) as [S1 S2]. apply (lim_zero (fun t => ys t i)); [apply (sp_y _ _ _ _ _ _ SP i Hi)|].
      eapply near_imp; [|apply near_and; [exact NK|apply near_and; [eapply (lim_neg (fun t => q_l (p t) i - Amul (p t) (xs t) i)); [apply lim_sub; [apply (sp_l _ _ _ _ _ _ SP)|apply path_Amul]|lra]|
        eapply (lim_neg (fun t => Amul (p t) (xs t) i - q_u (p t) i)); [apply lim_sub; [apply path_Amul|apply (sp_u _ _ _ _ _ _ SP)]|lra]]]].
      cbv beta. intros t ([_ _ K3] & L1 & L2). destruct (K3 i) as (_ & HU & HL); [rewrite (sp_m _ _ _ _ _ _ SP); auto|].
      destruct (Rtotal_order (ys t i) 0) as [H|[H|H]]; auto; [specialize (HL H)|specialize (HU H)]; lra.
  Qed.

  (** The derivative of a linear function of the solution. *)
  Lemma path_loss (a b : Z -> R) : derivable_pt_lim (fun t => sumn (q_n dp) (fun j => a j * xs t j) + sumn (q_m dp) (fun i => b i * ys t i)) 0
    (sumn (q_n dp) (fun j => a j * x' j) + sumn (q_m dp) (fun i => b i * y' i)).
  Proof.
    unfold sumn. apply lim_add.
    - apply (lim_zsum (q_n dp) (fun j t => a j * xs t j)). intros j Hj. replace (a j * x' j) with (0 * xs 0 j + a j * x' j) by ring. apply (lim_mul (fun _ => a j)); [apply derivable_pt_lim_const|apply (sp_x _ _ _ _ _ _ SP); auto].
    - apply (lim_zsum (q_m dp) (fun i t => b i * ys t i)). intros j Hj. replace (b j * y' j) with (0 * ys 0 j + b j * y' j) by ring. apply (lim_mul (fun _ => b j)); [apply derivable_pt_lim_const|apply (sp_y _ _ _ _ _ _ SP); auto].
  Qed.
End Path.
