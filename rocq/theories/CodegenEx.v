(** Code generation in binary64: the theorem for all solvers whose numbers survive "%.20f", and concrete solvers. *)
From Coq Require Import ZArith Reals String List Bool Lia SpecFloat.
From Verif Require Import Num Arr ArrFacts Csc Vec Types Linsys Auxil Polish Api CscSpec CscFacts ValidFacts LinsysFacts Inv InvApi RecSimp InvSetup History SetupClaims Runs Codegen CodegenFacts CodegenReach Decimal.
Import ListNotations.
Open Scope Z_scope.

Theorem codegen_f64 (E : Env F64) : env_ok E -> forall fac, fac_ok fac -> forall fmt rd, fmt_ok fmt -> rd_ok rd ->
  forall g P q A l u m n st s0 g' s e f p t i a, data_readable P q A l u m n -> osqp_setup E g P q A l u m n st = Some (0, Some s0, g') -> reach E s0 s ->
  options_ok (e, f, p, t, i, a) -> i_status_val (sv_info s) <> OSQP_NON_CVX -> (forall ls, w_linsys (sv_work s) = Some ls -> Forall (kept rd) (numbers fac s ls e)) ->
  exists ds G, osqp_codegen fmt fac s (Some (e, f, p, t, i, a)) = Some (0, ds) /\ NoDup (map fst ds) /\ load rd (mkcfg e false false false) ds = Some G /\ starts_as fac s e G.
Proof.
  intros EO fac FO fmt rd HF HR g P q A l u m n st s0 g' s e f p t i a HD HS HRe HO HN HK. refine (codegen_reach E EO _ fac FO fmt rd g P q A l u m n st s0 g' s e f p t i a HD HS HRe HO HN _); [vm_compute; reflexivity|].
  intros ls EL. specialize (HK ls EL). rewrite Forall_forall in *. intros x Hx. apply text_back; auto.
Qed.

(** factors of the right sizes: the identity *)
Definition facI (M : csc F64) : @factors F64 :=
  mkfactors (mkcsc (cn M) (cn M) (zrep (cn M + 1) 0) [] [] 0 (-1)) (zrep (cn M) n1) (zrep (cn M) n1) (zrep (cn M) (-1)) (zrep (cn M) 0).
Lemma facI_ok : fac_ok facI.
Proof.
  intros M H. unfold facI. cbn [f_L f_Dinv f_D f_etree f_Lnz]. repeat split; cbn [cn cp ci cx cnzmax]; rewrite ?zlen_zrep; try lia; unfold zlen; cbn; lia.
Qed.

(** [kept] decided for numbers that are zero, at least 2^-14 or read from their own text *)
Definition sfb (x y : F64) : bool :=
  match x, y with
  | S754_zero s, S754_zero s' => Bool.eqb s s'
  | S754_finite s m e, S754_finite s' m' e' => Bool.eqb s s' && Pos.eqb m m' && (e =? e')
  | _, _ => false
  end.
Lemma sfb_ok x y : sfb x y = true -> x = y.
Proof.
  destruct x as [s| | |s m e], y as [s'| | |s' m' e']; cbn; try discriminate.
  - intros H. apply Bool.eqb_prop in H. congruence.
  - rewrite !andb_true_iff. intros [[H1 H2] H3]. apply Bool.eqb_prop in H1. apply Pos.eqb_eq in H2. apply Z.eqb_eq in H3. congruence.
Qed.
Definition keptb (x : F64) : bool := fin x && sfb (rdF (fmtF x)) x.
Lemma keptb_ok x : keptb x = true -> kept rdF x.
Proof.
  unfold keptb. rewrite andb_true_iff. intros [H1 H2]. apply sfb_ok in H2. split; [auto|]. right. right. exists (fmtF x). split; [apply fmt_text; [apply fmtF_ok|auto]|auto].
Qed.

Definition all_kept (e : Z) (s : solver F64) : bool :=
  match w_linsys (sv_work s) with Some ls => forallb keptb (numbers facI s ls e) | None => false end.
Lemma all_kept_ok e s : all_kept e s = true -> forall ls, w_linsys (sv_work s) = Some ls -> Forall (kept rdF) (numbers facI s ls e).
Proof. unfold all_kept. intros H ls EL. rewrite EL in H. rewrite forallb_forall in H. rewrite Forall_forall. intros x Hx. apply keptb_ok, H, Hx. Qed.


Definition codegen_q (s : solver F64) : option (list F64) :=
  match osqp_codegen fmtF facI s (Some (1, 0, 0, 0, 0, 0)) with
  | Some (0, ds) => match load rdF (mkcfg 1 false false false) ds with Some G => Some (d_q (g_data G)) | None => None end
  | _ => None end.
(** the demo problem, solved; all its numbers are kept *)
Lemma demo_case : exists s0 g' s, osqp_setup fE g0 (Some fP) (Some fq) (Some fA) (Some fl) (Some fu) 3 2 (Some fst0) = Some (0, Some s0, g') /\ reach fE s0 s /\
  i_status_val (sv_info s) = OSQP_SOLVED /\ (forall ls, w_linsys (sv_work s) = Some ls -> Forall (kept rdF) (numbers facI s ls 2)) /\
  neqb (w_last_rel_kkt (sv_work s)) n0 = false /\ (6 < length (filter (fun x => negb (neqb x n0)) (w_x (sv_work s) ++ w_y (sv_work s) ++ w_z (sv_work s))))%nat.
Proof.
  destruct (script_ok fE g0 fP fq fA fl fu 3 2 fst0 [CSolve] [0] (fun _ s => (i_status_val (sv_info s) =? OSQP_SOLVED) && all_kept 2 s && negb (neqb (w_last_rel_kkt (sv_work s)) n0) &&
    Nat.ltb 6 (length (filter (fun x => negb (neqb x n0)) (w_x (sv_work s) ++ w_y (sv_work s) ++ w_z (sv_work s)))))) as (s0 & g' & s & H1 & H2 & H3); [vm_compute; reflexivity|].
  cbv beta in H3. apply andb_prop in H3 as [H3 H6]. apply andb_prop in H3 as [H3 H5]. apply andb_prop in H3 as [H3 H4]. exists s0, g', s. split; [exact H1|].
  cbn [calls] in H2. destruct (run fE CSolve s0) as [[f h]|] eqn:ER; [|discriminate H2]. destruct h as [| |s1]; try discriminate H2. injection H2 as _ <-.
  split; [eapply reach_S; [apply reach_0| |exact ER]; exact I|]. split; [apply Z.eqb_eq; auto|]. split; [apply all_kept_ok; auto|]. split; [apply negb_true_iff; auto|apply Nat.ltb_lt; auto].
Qed.
(** a problem with a linear term of 2^-70: the generated program has 0 instead *)
Definition tiny : F64 := S754_finite false (2 ^ 52) (-122).
Lemma tiny_case : exists s0 g', osqp_setup fE g0 (Some (one (nofZ 1))) (Some [tiny]) (Some (one (nofZ 1))) (Some [nofZ (-1)]) (Some [nofZ 1]) 1 1 (Some unscaled) = Some (0, Some s0, g') /\
  d_q (w_data (sv_work s0)) = [tiny] /\ codegen_q s0 = Some [S754_zero false : F64].
Proof.
  destruct (script_ok fE g0 (one (nofZ 1)) [tiny] (one (nofZ 1)) [nofZ (-1)] [nofZ 1] 1 1 unscaled [] [] (fun _ s => match d_q (w_data (sv_work s)), codegen_q s with [a], Some [b] => sfb a tiny && sfb b (S754_zero false) | _, _ => false end))
    as (s0 & g' & s & H1 & H2 & H3); [vm_compute; reflexivity|].
  cbv beta in H3. exists s0, g'. split; [exact H1|]. cbn [calls] in H2. injection H2 as <-. clear H1.
  destruct (d_q (w_data (sv_work s0))) as [|a [|]], (codegen_q s0) as [[|b [|]]|]; try discriminate H3. apply andb_prop in H3 as [H3 H4]. apply sfb_ok in H3, H4. subst. auto.
Qed.
Lemma tiny_lost fmt rd : fmt_ok fmt -> rd_ok rd -> val (rd (fmt tiny)) = 0%R.
Proof.
  intros HF HR. assert (Hx : fin tiny = true) by (vm_compute; reflexivity). pose proof (fmt_text fmt tiny HF Hx) as HT. destruct (HF tiny Hx) as (_ & HP & _). destruct (HR _ HT) as (_ & Hr & _).
  assert (EA : Rabs (val tiny) = p2 (-70)).
  { rewrite abs_val. unfold tiny. change (Zpos (2 ^ 52)) with (2 ^ 52). rewrite <- p2_Z, <- p2_add by lia. reflexivity. }
  rewrite EA in HP. pose proof (print_small (fmt tiny / 2) _ HP Hr) as HZ. destruct (Req_dec (val (rd (fmt tiny))) 0) as [|HY]; auto. apply Rabs_no_R0 in HY. contradiction.
Qed.

Lemma tiny_pos : (0 < val tiny)%R.
Proof. unfold tiny, val. rewrite Rmult_1_l. apply Rmult_lt_0_compat; [apply IZR_lt; reflexivity|apply p2_pos]. Qed.
Lemma tiny_generated : exists s0 g' ds G, osqp_setup fE g0 (Some (one (nofZ 1))) (Some [tiny]) (Some (one (nofZ 1))) (Some [nofZ (-1)]) (Some [nofZ 1]) 1 1 (Some unscaled) = Some (0, Some s0, g') /\
  osqp_codegen fmtF facI s0 (Some (1, 0, 0, 0, 0, 0)) = Some (0, ds) /\ load rdF (mkcfg 1 false false false) ds = Some G /\ d_q (w_data (sv_work s0)) = [tiny] /\ d_q (g_data G) = [S754_zero false : F64].
Proof.
  destruct tiny_case as (s0 & g' & H1 & H2 & H3). unfold codegen_q in H3. destruct (osqp_codegen fmtF facI s0 (Some (1, 0, 0, 0, 0, 0))) as [[[|z|z] ds]|] eqn:EC; try discriminate H3.
  destruct (load rdF (mkcfg 1 false false false) ds) as [G|] eqn:EL; [|discriminate H3]. injection H3 as H3. exists s0, g', ds, G. exact (conj H1 (conj EC (conj EL (conj H2 H3)))).
Qed.
Lemma options_ex : options_ok (2, 0, 0, 0, 0, 0). Proof. unfold options_ok, flag. lia. Qed.
Lemma options_ex2 : ~ options_ok (0, 0, 0, 0, 0, 0) /\ ~ options_ok (2, 0, 2, 0, 0, 0) /\ options_ok (1, 1, 1, 1, 1, 1).
Proof. unfold options_ok, flag. lia. Qed.
Lemma lost_digits : rdF (fmtF (@nlit F64 123456789 (-25))) <> @nlit F64 123456789 (-25).
Proof. vm_compute. discriminate. Qed.
Theorem text_error_once (fmt : F64 -> Z) (rd : Z -> F64) : fmt_ok fmt -> rd_ok rd -> forall x, fin x = true ->
  (Rabs (val (rd (fmt x)) - val x) <= / 10 ^ 20)%R /\ rd (fmt (rd (fmt x))) = rd (fmt x).
Proof.
  intros HF HR x Hx. split; [|apply text_once; auto]. replace (/ 10 ^ 20)%R with unit20; [apply text_error; auto|]. unfold unit20, D20. rewrite pow_IZR. reflexivity.
Qed.
Lemma options_case : exists s0 g' s ds, data_readable (Some fP) (Some fq) (Some fA) (Some fl) (Some fu) 3 2 /\
  osqp_setup fE g0 (Some fP) (Some fq) (Some fA) (Some fl) (Some fu) 3 2 (Some fst0) = Some (0, Some s0, g') /\ reach fE s0 s /\ i_status_val (sv_info s) = OSQP_SOLVED /\
  options_ok (2, 0, 0, 1, 0, 0) /\ osqp_codegen fmtF facI s (Some (2, 0, 0, 1, 0, 0)) = Some (0, ds) /\
  as_flt rdF (field (mkcfg 2 true false false) ds "work" "last_rel_kkt") <> Some (w_last_rel_kkt (sv_work s)).
Proof.
  destruct demo_case as (s0 & g' & s & H1 & H2 & H3 & _ & H4 & _). assert (HO : options_ok (2, 0, 0, 1, 0, 0)) by (unfold options_ok, flag; lia).
  destruct (codegen_misplaced fE fE_ok MM_F64 facI facI_ok fmtF rdF g0 _ _ _ _ _ _ _ _ s0 g' s 2 0 0 1 0 0 fdata_readable H1 H2 HO ltac:(rewrite H3; discriminate)) as (ds & E1 & _ & E2).
  exists s0, g', s, ds. split; [exact fdata_readable|]. split; [exact H1|]. split; [exact H2|]. split; [exact H3|]. split; [exact HO|]. split; [exact E1|].
  rewrite (E2 (mkcfg 2 true false false) eq_refl eq_refl). intros [= EW]. rewrite <- EW in H4. vm_compute in H4. discriminate H4.
Qed.

Lemma kept_ex : kept rdF (@nlit F64 1 (-1)) /\ kept rdF (@nlit F64 1 30) /\ kept rdF (@nlit F64 1 (-6)) /\ kept rdF (S754_zero true : F64).
Proof. repeat split; try (apply keptb_ok; vm_compute; reflexivity); apply keptb_ok; vm_compute; reflexivity. Qed.
Lemma fin_ex : fin (@nlit F64 1 (-17)) = true. Proof. vm_compute. reflexivity. Qed.
