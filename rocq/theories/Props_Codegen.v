(** C60 and C70: code generation.

    Specification: Decimal.v ([fmt_ok], [rd_ok]: printf("%.20f") and the compiler round to nearest; [val], [sgn], [fin]: the value, the sign bit and the
    finiteness of a double; [kept rd x]: x is zero, at least 2^-14 in absolute value, or was itself read from such a text), CodegenReach.v ([starts_as]: what the
    generated structure has to be, [numbers]: all the floating-point numbers written, [options_ok]: the accepted options, [fac_ok]: the sizes of QDLDL's
    factors), Codegen.v ([load], [field]: the meaning of static initialisers in C; [mkcfg e profiling printing derivatives]: how the generated code is compiled). *)
From Coq Require Import ZArith Reals String List Bool Lia Lra SpecFloat.
From Verif Require Import Num Arr Csc Vec Types Linsys Auxil Polish Api ValidFacts LinsysFacts Inv InvApi InvSetup History SetupClaims Runs Codegen CodegenFacts CodegenReach CodegenEx Decimal.
Import ListNotations.
Open Scope Z_scope.

(** C60: the text written for a double of at least 2^-14, for a zero of either sign, and for a number that came from such a text reads back as the same double. *)
Theorem C60_roundtrip : forall (fmt : F64 -> Z) (rd : Z -> F64), fmt_ok fmt -> rd_ok rd -> forall x, kept rd x -> rd (fmt x) = x.
Proof. exact (fun fmt rd HF HR x => text_back fmt rd x HF HR). Qed.
Print Assumptions C60_roundtrip.
(** functions that round like this exist; 0.1 and 1e30 are among the numbers *)
Example C60_roundtrip_ex : fmt_ok fmtF /\ rd_ok rdF /\ kept rdF (@nlit F64 1 (-1)) /\ kept rdF (@nlit F64 1 30) /\ kept rdF (@nlit F64 1 (-6)) /\ kept rdF (S754_zero true : F64).
Proof. exact (conj fmtF_ok (conj rdF_ok kept_ex)). Qed.

(** C60: any finite double reads back with an error of at most 10^-20, and writing it a second time changes nothing more. *)
Theorem C60_error : forall (fmt : F64 -> Z) (rd : Z -> F64), fmt_ok fmt -> rd_ok rd -> forall x, fin x = true ->
  (Rabs (val (rd (fmt x)) - val x) <= / 10 ^ 20)%R /\ rd (fmt (rd (fmt x))) = rd (fmt x).
Proof. exact text_error_once. Qed.
Print Assumptions C60_error.
Example C60_error_ex : fmt_ok fmtF /\ rd_ok rdF /\ fin (@nlit F64 1 (-17)) = true /\ rdF (fmtF (@nlit F64 123456789 (-25))) <> @nlit F64 123456789 (-25).
Proof. exact (conj fmtF_ok (conj rdF_ok (conj fin_ex lost_digits))). Qed.

(** C60 as stated is false: 2^-70 is written as 0. *)
Theorem C60_refuted : exists x : F64, fin x = true /\ (0 < val x)%R /\ forall fmt rd, fmt_ok fmt -> rd_ok rd -> val (rd (fmt x)) = 0%R.
Proof. exact (ex_intro _ tiny (conj eq_refl (conj tiny_pos tiny_lost))). Qed.
Print Assumptions C60_refuted.

(** C70: after every history of calls osqp_codegen with accepted options succeeds, no name is defined twice, and a program compiled without profiling,
    printing and derivatives starts from the solver's data, settings, scaling, rho, factors and iterates. *)
Theorem C70_same : forall E : Env F64, env_ok E -> forall fac, fac_ok fac -> forall fmt rd, fmt_ok fmt -> rd_ok rd ->
  forall g P q A l u m n st s0 g' s e f p t i a, data_readable P q A l u m n -> osqp_setup E g P q A l u m n st = Some (0, Some s0, g') -> reach E s0 s ->
  options_ok (e, f, p, t, i, a) -> i_status_val (sv_info s) <> OSQP_NON_CVX -> (forall ls, w_linsys (sv_work s) = Some ls -> Forall (kept rd) (numbers fac s ls e)) ->
  exists ds G, osqp_codegen fmt fac s (Some (e, f, p, t, i, a)) = Some (0, ds) /\ NoDup (map fst ds) /\ load rd (mkcfg e false false false) ds = Some G /\ starts_as fac s e G.
Proof. exact codegen_f64. Qed.
Print Assumptions C70_same.
(** the demo problem after a solve *)
Example C70_same_ex : env_ok fE /\ fac_ok facI /\ data_readable (Some fP) (Some fq) (Some fA) (Some fl) (Some fu) 3 2 /\ options_ok (2, 0, 0, 0, 0, 0) /\
  exists s0 g' s, osqp_setup fE g0 (Some fP) (Some fq) (Some fA) (Some fl) (Some fu) 3 2 (Some fst0) = Some (0, Some s0, g') /\ reach fE s0 s /\
  i_status_val (sv_info s) = OSQP_SOLVED /\ (forall ls, w_linsys (sv_work s) = Some ls -> Forall (kept rdF) (numbers facI s ls 2)) /\
  neqb (w_last_rel_kkt (sv_work s)) n0 = false /\ (6 < length (filter (fun x => negb (neqb x n0)) (w_x (sv_work s) ++ w_y (sv_work s) ++ w_z (sv_work s))))%nat.
Proof. exact (conj fE_ok (conj facI_ok (conj fdata_readable (conj options_ex demo_case)))). Qed.

(** C70: the exit flags of the calls that write nothing, for any number system. *)
Theorem C70_codes : forall (K : NumOps) (fac : csc K -> @factors K) (fmt : K -> Z) (s : solver K) (o : option (Z * Z * Z * Z * Z * Z)),
  (i_status_val (sv_info s) = OSQP_NON_CVX -> osqp_codegen fmt fac s o = Some (OSQP_NONCVX_ERROR, [])) /\
  (i_status_val (sv_info s) <> OSQP_NON_CVX -> w_linsys (sv_work s) = None -> osqp_codegen fmt fac s o = Some (OSQP_WORKSPACE_NOT_INIT_ERROR, [])) /\
  (i_status_val (sv_info s) <> OSQP_NON_CVX -> w_linsys (sv_work s) <> None -> (forall v, o = Some v -> ~ options_ok v) -> osqp_codegen fmt fac s o = Some (OSQP_CODEGEN_DEFINES_ERROR, [])).
Proof. exact (fun K fac fmt => codegen_codes fac fmt). Qed.
Print Assumptions C70_codes.
Example C70_codes_ex : ~ options_ok (0, 0, 0, 0, 0, 0) /\ ~ options_ok (2, 0, 2, 0, 0, 0) /\ options_ok (1, 1, 1, 1, 1, 1).
Proof. exact options_ex2. Qed.

(** C70: when profiling, printing or derivatives are switched on for the generated code, the member last_rel_kkt always starts as 0; with profiling the
    timer is not a timer and first_run, an integer, gets a floating-point text. *)
Theorem C70_misplaced : forall (K : NumOps) (E : Env K), env_ok E -> nltb (OSQP_RHO_MIN K) (OSQP_RHO_MAX K) = true -> forall fac, fac_ok fac -> forall (fmt : K -> Z) (rd : Z -> K),
  forall g P q A l u m n st s0 g' s e f p t i a, data_readable P q A l u m n -> osqp_setup E g P q A l u m n st = Some (0, Some s0, g') -> reach E s0 s ->
  options_ok (e, f, p, t, i, a) -> i_status_val (sv_info s) <> OSQP_NON_CVX ->
  exists ds, osqp_codegen fmt fac s (Some (e, f, p, t, i, a)) = Some (0, ds) /\
    (forall pr dv, as_addr (field (mkcfg e true pr dv) ds "work" "timer") = (if w_rho_updated (sv_work s) =? 0 then Some None else None) /\
      as_int (field (mkcfg e true pr dv) ds "work" "first_run") = None) /\
    (forall c, c_embedded c = e -> c_profiling c || c_printing c || c_derivatives c = true -> as_flt rd (field c ds "work" "last_rel_kkt") = Some (nofZ 0)).
Proof. exact (fun K E EO MM fac FO fmt rd => codegen_misplaced E EO MM fac FO fmt rd). Qed.
Print Assumptions C70_misplaced.
Example C70_misplaced_ex : env_ok fE /\ nltb (OSQP_RHO_MIN F64) (OSQP_RHO_MAX F64) = true /\ fac_ok facI /\ data_readable (Some fP) (Some fq) (Some fA) (Some fl) (Some fu) 3 2 /\ options_ok (2, 0, 0, 0, 0, 0) /\
  exists s0 g' s, osqp_setup fE g0 (Some fP) (Some fq) (Some fA) (Some fl) (Some fu) 3 2 (Some fst0) = Some (0, Some s0, g') /\ reach fE s0 s /\
  i_status_val (sv_info s) = OSQP_SOLVED /\ (forall ls, w_linsys (sv_work s) = Some ls -> Forall (kept rdF) (numbers facI s ls 2)) /\
  neqb (w_last_rel_kkt (sv_work s)) n0 = false /\ (6 < length (filter (fun x => negb (neqb x n0)) (w_x (sv_work s) ++ w_y (sv_work s) ++ w_z (sv_work s))))%nat.
Proof. exact (conj fE_ok (conj MM_F64 (conj facI_ok (conj fdata_readable (conj options_ex demo_case))))). Qed.

(** C70 as stated is false in two ways: with profiling, the demo problem's program starts with another last_rel_kkt than the solver has ... *)
Theorem C70_refuted_options : exists s0 g' s ds, data_readable (Some fP) (Some fq) (Some fA) (Some fl) (Some fu) 3 2 /\
  osqp_setup fE g0 (Some fP) (Some fq) (Some fA) (Some fl) (Some fu) 3 2 (Some fst0) = Some (0, Some s0, g') /\ reach fE s0 s /\ i_status_val (sv_info s) = OSQP_SOLVED /\
  options_ok (2, 0, 0, 1, 0, 0) /\ osqp_codegen fmtF facI s (Some (2, 0, 0, 1, 0, 0)) = Some (0, ds) /\
  as_flt rdF (field (mkcfg 2 true false false) ds "work" "last_rel_kkt") <> Some (w_last_rel_kkt (sv_work s)).
Proof. exact options_case. Qed.
Print Assumptions C70_refuted_options.
(** ... and a linear term of 2^-70 becomes 0. *)
Theorem C70_refuted_small : exists s0 g' ds G, osqp_setup fE g0 (Some (one (nofZ 1))) (Some [tiny]) (Some (one (nofZ 1))) (Some [nofZ (-1)]) (Some [nofZ 1]) 1 1 (Some unscaled) = Some (0, Some s0, g') /\
  osqp_codegen fmtF facI s0 (Some (1, 0, 0, 0, 0, 0)) = Some (0, ds) /\ load rdF (mkcfg 1 false false false) ds = Some G /\ d_q (w_data (sv_work s0)) = [tiny] /\ d_q (g_data G) = [S754_zero false : F64].
Proof. exact tiny_generated. Qed.
Print Assumptions C70_refuted_small.
