(** The generated C definitions give back the solver they were written from. *)
From Coq Require Import ZArith String List Bool Lia.
From Verif Require Import Num Arr ArrFacts Csc Vec Types Linsys Auxil Codegen.
Import ListNotations.
Open Scope string_scope.
Open Scope list_scope.
Open Scope Z_scope.

(** Names with the same prefix are compared by what follows it. *)
Lemma prefix_eqb (pre a b : string) : String.eqb (pre ++ a)%string (pre ++ b)%string = String.eqb a b.
Proof. induction pre as [|c pre IH]; cbn; [reflexivity|]. rewrite Ascii.eqb_refl. exact IH. Qed.

Definition take {A} (n : Z) (l : list A) : list A := firstn (Z.to_nat n) l.
Lemma take_all {A} (l : list A) : take (zlen l) l = l.
Proof. unfold take, zlen. rewrite Nat2Z.id. apply firstn_all. Qed.
Lemma take_len {A} n (l : list A) : 0 <= n <= zlen l -> zlen (take n l) = n.
Proof. unfold take, zlen. intros H. rewrite firstn_length. lia. Qed.
Lemma view_take {A} n (l : list A) : 0 <= n <= zlen l -> view l 0 n = Some (take n l).
Proof. intros H. unfold view, take. replace ((0 <=? 0) && (0 <=? n) && (0 + n <=? zlen l)) with true by lia. reflexivity. Qed.
Lemma view_all {A} (l : list A) n : zlen l = n -> view l 0 n = Some l.
Proof. intros <-. rewrite view_take by (unfold zlen; lia). rewrite take_all. reflexivity. Qed.

Section P.
  Variable p : prog.
  Hypothesis ND : NoDup (map fst p).
  Lemma lookup_in n b : In (n, b) p -> lookup p n = Some b.
  Proof.
    clear -ND. induction p as [|[n' b'] q IH]; intros H; [destruct H|]. cbn [lookup]. cbn [map fst] in ND. inversion ND as [|? ? H1 H2]; subst.
    destruct H as [H|H].
    - injection H as <- <-. rewrite String.eqb_refl. reflexivity.
    - destruct (String.eqb n n') eqn:E; [|auto]. apply String.eqb_eq in E. subst n'. exfalso. apply H1. change n with (fst (n, b)). apply in_map. exact H.
  Qed.
  Lemma field_in c n ty is f : In (n, BStr ty is) p ->
    field c p n f = if (length (layout c ty) <? length is)%nat then None else match index (layout c ty) f with Some k => Some (nth k is (IInt 0)) | None => None end.
  Proof. intros H. unfold field. rewrite (lookup_in _ _ H). reflexivity. Qed.
End P.

Section Gen.
  Context {K : NumOps}.
  Variable fmt : K -> Z.
  Variable rd : Z -> K.
  Definition back (x : K) : Prop := rd (fmt x) = x.
  Lemma back_map v : Forall back v -> map rd (map fmt v) = v.
  Proof. intros H. rewrite map_map. induction H as [|x v H1 H2 IH]; cbn; [reflexivity|]. rewrite H1, IH. reflexivity. Qed.
  Lemma Forall_take {A} (Q : A -> Prop) n l : Forall Q l -> Forall Q (take n l).
  Proof. unfold take. intros H. rewrite Forall_forall in *. intros x Hx. apply H. revert Hx. generalize (Z.to_nat n). intros k. revert k. clear H. induction l as [|a l IH]; intros [|k] Hx; cbn in *; try tauto. destruct Hx as [->|Hx]; [auto|right; eauto]. Qed.

  (** *** What the writers produce *)
  Definition bodyf (v : list K) (n : Z) : body := if n =? 0 then BMac else BFlt (map fmt (take n v)).
  Definition bodyi (v : list Z) (n : Z) : body := if n =? 0 then BMac else BInt (take n v).
  Definition dvec (name : string) (v : list K) : prog := [((name ++ "_val")%string, bodyf v (zlen v)); (name, BStr "OSQPVectorf" [IRef (name ++ "_val") 0; IInt (zlen v)])].
  Definition dveci (name : string) (v : list Z) : prog := [((name ++ "_val")%string, bodyi v (zlen v)); (name, BStr "OSQPVectori" [IRef (name ++ "_val") 0; IInt (zlen v)])].
  Definition dcsc (name : string) (M : csc K) : prog :=
    [((name ++ "_p")%string, bodyi (cp M) (cn M + 1)); ((name ++ "_i")%string, bodyi (ci M) (cnzmax M)); ((name ++ "_x")%string, bodyf (cx M) (cnzmax M));
     (name, BStr "OSQPCscMatrix" [IInt (cm M); IInt (cn M); IRef (name ++ "_p") 0; IRef (name ++ "_i") 0; IRef (name ++ "_x") 0; IInt (cnzmax M); IInt (cnz M)])].
  Definition dmat (name : string) (M : csc K) (sy : Z) : prog := (dcsc (name ++ "_csc") M ++ [(name, BStr "OSQPMatrix" [IAddr (name ++ "_csc"); IInt sy])])%list.
  Definition dbuf (name : string) (len : Z) : prog := [((name ++ "_val")%string, BBuf len); (name, BStr "OSQPVectorf" [IRef (name ++ "_val") 0; IInt len])].
  Definition dbuf0 (name : string) (len : Z) : prog := if 0 <? len then dbuf name len else [(name, BStr "OSQPVectorf" [INull; IInt 0])].

  (** The arrays of a matrix are as long as its header says. *)
  Definition stored (M : csc K) : Prop := 0 <= cn M + 1 <= zlen (cp M) /\ 0 <= cnzmax M <= zlen (ci M) /\ cnzmax M <= zlen (cx M).
  Definition trim (M : csc K) : csc K := mkcsc (cm M) (cn M) (take (cn M + 1) (cp M)) (take (cnzmax M) (ci M)) (take (cnzmax M) (cx M)) (cnzmax M) (cnz M).

  Lemma w_vecf v n name : 0 <= n <= zlen v -> write_vecf fmt (Some v) n name = emit [(name, bodyf v n)].
  Proof. intros H. unfold write_vecf, bodyf. destruct (n =? 0); [reflexivity|]. rewrite view_take by auto. reflexivity. Qed.
  Lemma w_veci v n name : 0 <= n <= zlen v -> write_veci (Some v) n name = emit [(name, bodyi v n)].
  Proof. intros H. unfold write_veci, bodyi. destruct (n =? 0); [reflexivity|]. rewrite view_take by auto. reflexivity. Qed.
  Lemma w_seq a b : wseq (emit a) (emit b) = emit (a ++ b). Proof. reflexivity. Qed.
  Lemma zlen_self {A} (v : list A) : 0 <= zlen v <= zlen v. Proof. unfold zlen. lia. Qed.
  Lemma w_vec v name : write_OSQPVectorf fmt (Some v) name = emit (dvec name v).
  Proof. unfold write_OSQPVectorf. rewrite w_vecf by apply zlen_self. reflexivity. Qed.
  Lemma w_vec_i v name : write_OSQPVectori (Some v) name = emit (dveci name v).
  Proof. unfold write_OSQPVectori. rewrite w_veci by apply zlen_self. reflexivity. Qed.
  Lemma w_csc M name : stored M -> write_csc fmt (Some M) name = emit (dcsc name M).
  Proof. intros (H1 & H2 & H3). unfold write_csc. rewrite !w_veci, w_vecf by lia. reflexivity. Qed.
  Lemma w_mat M sy name : stored M -> write_OSQPMatrix fmt M sy name = emit (dmat name M sy).
  Proof. intros H. unfold write_OSQPMatrix. rewrite w_csc by auto. reflexivity. Qed.
  Lemma w_buf name len : buf name len = emit (dbuf name len). Proof. reflexivity. Qed.
  Lemma w_buf0 name len : buf0 name len = emit (dbuf0 name len). Proof. unfold buf0, dbuf0. destruct (0 <? len); reflexivity. Qed.

  (** *** What the compiler makes of it *)
  Section Read.
    Variables (c : cfg) (p : prog).
    Hypothesis ND : NoDup (map fst p).
    Notation has d := (incl d p).
    Ltac fld H := rewrite (field_in p ND c _ _ _ _ H); cbn [layout length Nat.ltb Nat.leb index nth String.eqb Ascii.eqb Bool.eqb].

    Lemma r_arrf n v k : In (n, bodyf v k) p -> 0 <= k <= zlen v -> Forall back v -> arrf rd p (Some (IRef n 0)) k = Some (take k v).
    Proof.
      intros H Hk Hb. unfold arrf. rewrite (lookup_in p ND _ _ H). unfold bodyf. destruct (k =? 0) eqn:E.
      - apply Z.eqb_eq in E. subst k. reflexivity.
      - rewrite back_map by (apply Forall_take; auto). apply view_all. apply take_len. auto.
    Qed.
    Lemma r_arri n v k : In (n, bodyi v k) p -> 0 <= k <= zlen v -> arri p (Some (IRef n 0)) k = Some (take k v).
    Proof.
      intros H Hk. unfold arri. rewrite (lookup_in p ND _ _ H). unfold bodyi. destruct (k =? 0) eqn:E.
      - apply Z.eqb_eq in E. subst k. reflexivity.
      - apply view_all. apply take_len. auto.
    Qed.
    Lemma r_bufi n k : In (n, BBuf k) p -> 0 <= k -> arri p (Some (IRef n 0)) k = Some (zrep k 0).
    Proof. intros H Hk. unfold arri. rewrite (lookup_in p ND _ _ H). apply view_all. apply zlen_zrep. auto. Qed.
    Lemma r_buff n k : In (n, BBuf k) p -> 0 <= k -> arrf rd p (Some (IRef n 0)) k = Some (zrep k n0).
    Proof. intros H Hk. unfold arrf. rewrite (lookup_in p ND _ _ H). apply view_all. apply zlen_zrep. auto. Qed.
    Lemma r_vec n v : has (dvec n v) -> Forall back v -> vecf rd c p (Some (IAddr n)) = Some v.
    Proof.
      intros H Hb. assert (H1 : In (n, BStr "OSQPVectorf" [IRef (n ++ "_val") 0; IInt (zlen v)]) p) by (apply H; cbn; auto).
      unfold vecf. fld H1. cbn [as_int]. fld H1. rewrite r_arrf with (v := v); [rewrite take_all; reflexivity|apply H; cbn; auto|apply zlen_self|auto].
    Qed.
    Lemma r_veci n v : has (dveci n v) -> veci c p (Some (IAddr n)) = Some v.
    Proof.
      intros H. assert (H1 : In (n, BStr "OSQPVectori" [IRef (n ++ "_val") 0; IInt (zlen v)]) p) by (apply H; cbn; auto).
      unfold veci. fld H1. cbn [as_int]. fld H1. rewrite r_arri with (v := v); [rewrite take_all; reflexivity|apply H; cbn; auto|apply zlen_self].
    Qed.
    Lemma r_buf n k : has (dbuf n k) -> 0 <= k -> vecf rd c p (Some (IAddr n)) = Some (zrep k n0).
    Proof.
      intros H Hk. assert (H1 : In (n, BStr "OSQPVectorf" [IRef (n ++ "_val") 0; IInt k]) p) by (apply H; cbn; auto).
      unfold vecf. fld H1. cbn [as_int]. fld H1. apply r_buff; [apply H; cbn; auto|auto].
    Qed.
    Lemma r_buf0 n k : has (dbuf0 n k) -> 0 <= k -> vecf rd c p (Some (IAddr n)) = Some (zrep k n0).
    Proof.
      unfold dbuf0. destruct (0 <? k) eqn:E; intros H Hk; [apply r_buf; auto|]. assert (k = 0) as -> by lia.
      assert (H1 : In (n, BStr "OSQPVectorf" [INull; IInt 0]) p) by (apply H; cbn; auto). unfold vecf. fld H1. cbn [as_int]. fld H1. reflexivity.
    Qed.
    Lemma r_csc n M : has (dcsc n M) -> stored M -> Forall back (cx M) -> cscm rd c p (Some (IAddr n)) = Some (trim M).
    Proof.
      intros H (S1 & S2 & S3) Hb. set (is := [IInt (cm M); IInt (cn M); IRef (n ++ "_p") 0; IRef (n ++ "_i") 0; IRef (n ++ "_x") 0; IInt (cnzmax M); IInt (cnz M)]).
      assert (H1 : In (n, BStr "OSQPCscMatrix" is) p) by (apply H; cbn; auto). unfold cscm, is in *. fld H1. cbn [as_int]. fld H1. cbn [as_int]. fld H1. cbn [as_int]. fld H1. cbn [as_int]. fld H1.
      rewrite r_arri with (v := cp M) by (auto; apply H; cbn; auto). fld H1. rewrite r_arri with (v := ci M) by (auto; apply H; cbn; auto). fld H1. rewrite r_arrf with (v := cx M) by (auto; try lia; apply H; cbn; auto). reflexivity.
    Qed.
    Lemma r_mat n M sy : has (dmat n M sy) -> stored M -> Forall back (cx M) -> mat rd c p (Some (IAddr n)) = Some (trim M, sy).
    Proof.
      intros H HS Hb. assert (H1 : In (n, BStr "OSQPMatrix" [IAddr (n ++ "_csc"); IInt sy]) p) by (apply H; unfold dmat; apply in_or_app; right; cbn; auto).
      unfold mat. fld H1. rewrite r_csc with (M := M); auto; [|intros x Hx; apply H; unfold dmat; apply in_or_app; auto]. fld H1. reflexivity.
    Qed.
  End Read.

  (** *** The whole file *)
  Variable fac : csc K -> @factors K.
  Definition dsol (n m : Z) : prog := [("sol_x", BBuf n); ("sol_y", if 0 <? m then BBuf m else BMac); ("sol_prim_inf_cert", if 0 <? m then BBuf m else BMac); ("sol_dual_inf_cert", BBuf n);
    ("sol", BStr "OSQPSolution" [IRef "sol_x" 0; IRef "sol_y" 0; IRef "sol_prim_inf_cert" 0; IRef "sol_dual_inf_cert" 0])].
  Definition dscaling (sc : scaling K) : prog := (dvec "scaling_D" (sc_D sc) ++ dvec "scaling_E" (sc_E sc) ++ dvec "scaling_Dinv" (sc_Dinv sc) ++ dvec "scaling_Einv" (sc_Einv sc) ++
    [("scaling"%string, BStr "OSQPScaling" [IFlt (fmt (sc_c sc)); IAddr "scaling_D"; IAddr "scaling_E"; IFlt (fmt (sc_cinv sc)); IAddr "scaling_Dinv"; IAddr "scaling_Einv"])])%list.
  Definition ddata (d : data K) : prog := (dmat "data_P" (d_P d) 1 ++ dmat "data_A" (d_A d) 0 ++ dvec "data_q" (d_q d) ++ dvec "data_l" (d_l d) ++ dvec "data_u" (d_u d) ++
    [("data"%string, BStr "OSQPData" [IInt (d_n d); IInt (d_m d); IAddr "data_P"; IAddr "data_A"; IAddr "data_q"; IAddr "data_l"; IAddr "data_u"])])%list.
  Definition ils (two : bool) (rv : bool) (sg ri : K) (n m : Z) : list init :=
    ([IInt G_DIRECT_SOLVER; IFun "name_qdldl"; IFun "solve_linsys_qdldl"; IFun "update_settings_linsys_solver_qdldl"; IFun "warm_start_linsys_solver_qdldl"] ++
         (if two then [IFun "update_linsys_solver_matrices_qdldl"; IFun "update_linsys_solver_rho_vec_qdldl"] else []) ++
         [IInt 1; IAddr "linsys_L"; IRef "linsys_Dinv" 0; IRef "linsys_P" 0; IRef "linsys_bp" 0; IRef "linsys_sol" 0;
          if rv then IRef "linsys_rho_inv_vec" 0 else INull; IFlt (fmt sg); IFlt (fmt ri); IInt n; IInt m] ++
         (if two then [IAddr "linsys_KKT"; IRef "linsys_PtoKKT" 0; IRef "linsys_AtoKKT" 0; IRef "linsys_rhotoKKT" 0; IRef "linsys_D" 0; IRef "linsys_etree" 0; IRef "linsys_Lnz" 0;
            IRef "linsys_iwork" 0; IRef "linsys_bwork" 0; IRef "linsys_fwork" 0] else []))%list.
  Definition dtwo (ls : linsys K) (KKT : csc K) (F : @factors K) (nP nA n m : Z) : prog :=
    (dcsc "linsys_KKT" KKT ++ [("linsys_PtoKKT", bodyi (ls_PtoKKT ls) nP); ("linsys_AtoKKT", bodyi (ls_AtoKKT ls) nA); ("linsys_rhotoKKT", bodyi (ls_rhotoKKT ls) m); ("linsys_D", bodyf (f_D F) (n + m));
      ("linsys_etree", bodyi (f_etree F) (n + m)); ("linsys_Lnz", bodyi (f_Lnz F) (n + m)); ("linsys_iwork", BBuf (3 * (n + m))); ("linsys_bwork", BBuf (n + m)); ("linsys_fwork", BBuf (n + m))])%list.
  Definition dlinsys (ls : linsys K) (KKT : csc K) (nP nA : Z) (two : bool) : prog :=
    let n := ls_n ls in let m := ls_m ls in let F := fac (ls_fac ls) in
    (dcsc "linsys_L" (f_L F) ++ [("linsys_Dinv", bodyf (f_Dinv F) (n + m)); ("linsys_P", bodyi (ls_perm ls) (n + m)); ("linsys_bp", BBuf (n + m)); ("linsys_sol", BBuf (n + m))] ++
     (match ls_rho_inv_vec ls with Some v => [("linsys_rho_inv_vec"%string, bodyf v m)] | None => [] end) ++ (if two then dtwo ls KKT F nP nA n m else []) ++
     [("linsys"%string, BStr "qdldl_solver" (ils two (match ls_rho_inv_vec ls with Some _ => true | None => false end) (ls_sigma ls) (ls_rho_inv ls) n m))])%list.
  Definition iwork (vec two scal : bool) (w : work K) : list init :=
     ([IAddr "data"; IAddr "linsys"] ++
       (if vec then [IAddr "work_rho_vec"; IAddr "work_rho_inv_vec"] ++ (if two then [IAddr "work_constr_type"] else []) else [INull; INull] ++ (if two then [INull] else [])) ++
       [IAddr "work_x"; IAddr "work_y"; IAddr "work_z"; IAddr "work_xz_tilde"; IAddr "work_xtilde_view"; IAddr "work_ztilde_view"; IAddr "work_x_prev"; IAddr "work_z_prev";
        IAddr "work_Ax"; IAddr "work_Px"; IAddr "work_Aty"; IZero; IZero; IZero; IZero; IAddr "work_delta_y"; IAddr "work_Atdelta_y"; IAddr "work_delta_x"; IAddr "work_Pdelta_x"; IAddr "work_Adelta_x"] ++
       (if two then (if scal then [IAddr "work_D_temp"; IAddr "work_D_temp_A"; IAddr "work_E_temp"] else [INull; INull; INull]) else []) ++
       [if scal then IAddr "scaling" else INull; IZero; IZero; IFlt (fmt (w_rho_inv w)); IInt (w_rho_updated w); IFlt (fmt (w_last_rel_kkt w))])%list.
  Definition dwork (w : work K) (KKT : csc K) (ls : linsys K) (sc : scaling K) (rv riv : list K) (ct : list Z) (nP nA n m : Z) (vec two scal : bool) : prog :=
    (ddata (w_data w) ++ dlinsys ls KKT nP nA two ++ (if vec then dvec "work_rho_vec" rv ++ dvec "work_rho_inv_vec" riv ++ (if two then dveci "work_constr_type" ct else []) else []) ++
     dvec "work_x" (w_x w) ++ dvec "work_y" (w_y w) ++ dvec "work_z" (w_z w) ++
     [("work_xz_tilde_val", BBuf (n + m)); ("work_xz_tilde", BStr "OSQPVectorf" [IRef "work_xz_tilde_val" 0; IInt (n + m)]);
      ("work_xtilde_view", BStr "OSQPVectorf" [IRef "work_xz_tilde_val" 0; IInt n]); ("work_ztilde_view", BStr "OSQPVectorf" [IRef "work_xz_tilde_val" n; IInt m])] ++
     dbuf "work_x_prev" n ++ dbuf0 "work_z_prev" m ++ dbuf0 "work_Ax" m ++ dbuf "work_Px" n ++ dbuf "work_Aty" n ++ dbuf0 "work_delta_y" m ++ dbuf "work_Atdelta_y" n ++ dbuf "work_delta_x" n ++
     dbuf "work_Pdelta_x" n ++ dbuf0 "work_Adelta_x" m ++ (if two then dbuf "work_D_temp" n ++ dbuf "work_D_temp_A" n ++ dbuf0 "work_E_temp" m else []) ++ (if scal then dscaling sc else []) ++
     [("work"%string, BStr "OSQPWorkspace" (iwork vec two scal w))])%list.

  (** Spec: the settings, the matrices, the solver structure a generated program should start from. *)
  Definition gen_settings (s : settings K) : settings K :=
    set_st_device 0 (set_st_linsys_solver G_DIRECT_SOLVER (set_st_allocate_solution 1 (set_st_verbose 0 (set_st_profiler_level 0 (set_st_polishing 0 s))))).
  Definition gen_info (i : info K) : info K :=
    mkinfo "unsolved"%string OSQP_UNSOLVED 0 (OSQP_INFTY K) (OSQP_INFTY K) (OSQP_INFTY K) (OSQP_INFTY K) (OSQP_INFTY K) 0 0 (i_rho_estimate i) n0 n0 n0 n0 n0 n0 n0.
  Definition gen_data (d : data K) : data K := mkdata (d_n d) (d_m d) (trim (d_P d)) (trim (d_A d)) (d_q d) (d_l d) (d_u d).

  Definition img_settings_ok (s : settings K) : Prop := Forall back [st_rho s; st_sigma s; st_alpha s; st_cg_tol_fraction s; st_adaptive_rho_fraction s; st_adaptive_rho_tolerance s; st_eps_abs s; st_eps_rel s; st_eps_prim_inf s; st_eps_dual_inf s; st_time_limit s; st_delta s].

  Section ReadAll.
    Variables (c : cfg) (p : prog).
    Hypothesis ND : NoDup (map fst p).
    Notation has d := (incl d p).
    Ltac fl H := unfold field; rewrite ?(lookup_in p ND _ _ H).
    Ltac comp := lazy beta iota zeta delta [layout String.eqb Ascii.eqb Bool.eqb index nth length Nat.ltb Nat.leb as_int as_flt as_str as_addr c_embedded c_profiling c_printing c_derivatives Z.eqb Pos.eqb app andb iwork ils opt].

    Lemma r_settings s ds : write_settings fmt s = Some (0, ds) -> has ds -> img_settings_ok s -> load_settings rd c p "settings" = Some (gen_settings s).
    Proof.
      unfold write_settings, emit. intros [= <-] H HB. assert (H1 := H _ (or_introl eq_refl)). unfold load_settings. cbv zeta. fl H1. comp.
      unfold img_settings_ok in HB. repeat match goal with H : Forall _ (_ :: _) |- _ => inversion H; clear H; subst end. unfold back in *.
      repeat match goal with H : rd (fmt ?x) = _ |- _ => rewrite H; clear H end. destruct s. reflexivity.
    Qed.
    Lemma r_info i ds : write_info fmt i = Some (0, ds) -> has ds -> Forall back [OSQP_INFTY K; i_rho_estimate i] -> load_info rd c p "info" = Some (gen_info i).
    Proof.
      unfold write_info, emit. intros [= <-] H HB. assert (H1 := H _ (or_introl eq_refl)). unfold load_info. cbv zeta. fl H1. comp.
      repeat match goal with H : Forall _ (_ :: _) |- _ => inversion H; clear H; subst end. unfold back in *.
      repeat match goal with H : rd (fmt ?x) = _ |- _ => rewrite H; clear H end. reflexivity.
    Qed.
    Lemma r_data d : has (ddata d) -> stored (d_P d) -> stored (d_A d) -> Forall back (cx (d_P d)) -> Forall back (cx (d_A d)) -> Forall back (d_q d) -> Forall back (d_l d) -> Forall back (d_u d) ->
      load_data rd c p "data" = Some (gen_data d, (1, 0)).
    Proof.
      intros H SP SA B1 B2 B3 B4 B5. unfold ddata in H. repeat match goal with H : incl (_ ++ _) _ |- _ => apply incl_app_inv in H; destruct H end.
      match goal with H : has [("data"%string, _)] |- _ => assert (HQ := H _ (or_introl eq_refl)) end. unfold load_data. fl HQ. comp.
      rewrite !r_mat with (M := d_P d) (sy := 1), !r_mat with (M := d_A d) (sy := 0), !r_vec with (v := d_q d), !r_vec with (v := d_l d), !r_vec with (v := d_u d) by auto. reflexivity.
    Qed.
    Lemma r_scaling sc : has (dscaling sc) -> Forall back [sc_c sc; sc_cinv sc] -> Forall back (sc_D sc) -> Forall back (sc_E sc) -> Forall back (sc_Dinv sc) -> Forall back (sc_Einv sc) ->
      load_scaling rd c p "scaling" = Some sc.
    Proof.
      intros H B1 B2 B3 B4 B5. unfold dscaling in H. repeat match goal with H : incl (_ ++ _) _ |- _ => apply incl_app_inv in H; destruct H end.
      match goal with H : has [("scaling"%string, _)] |- _ => assert (HQ := H _ (or_introl eq_refl)) end. unfold load_scaling. fl HQ. comp.
      rewrite !r_vec with (v := sc_D sc), !r_vec with (v := sc_E sc), !r_vec with (v := sc_Dinv sc), !r_vec with (v := sc_Einv sc) by auto.
      repeat match goal with H : Forall _ (_ :: _) |- _ => inversion H; clear H; subst end. unfold back in *.
      repeat match goal with H : rd (fmt ?x) = _ |- _ => rewrite H; clear H end. destruct sc. reflexivity.
    Qed.
    Lemma r_sol n m : has (dsol n m) -> 0 <= n -> 0 <= m -> load_solution rd c p "sol" n m = Some (mksolution (zrep n n0) (zrep m n0) (zrep m n0) (zrep n n0)).
    Proof.
      intros H Hn Hm. assert (H1 : In ("sol"%string, BStr "OSQPSolution" [IRef "sol_x" 0; IRef "sol_y" 0; IRef "sol_prim_inf_cert" 0; IRef "sol_dual_inf_cert" 0]) p) by (apply H; cbn; tauto).
      unfold load_solution. fl H1. comp. rewrite (r_buff p ND "sol_x" n), (r_buff p ND "sol_dual_inf_cert" n) by (auto; apply H; cbn; tauto).
      assert (HY : forall x, In (x, if 0 <? m then BBuf m else BMac) p -> arrf rd p (Some (IRef x 0)) m = Some (zrep m n0)).
      { intros x Hx. destruct (0 <? m) eqn:E; [apply r_buff; auto|]. assert (m = 0) as -> by lia. unfold arrf. rewrite (lookup_in p ND _ _ Hx). reflexivity. }
      rewrite !HY by (apply H; cbn; tauto). reflexivity.
    Qed.
    Definition nP (d : data K) : Z := znth 0 (cp (d_P d)) (d_n d).
    Definition nA (d : data K) : Z := znth 0 (cp (d_A d)) (d_n d).
    (** Spec: the linear system solver and the workspace the generated program should start from. *)
    Definition gen_ls (ls : linsys K) (d : data K) (e : Z) : gls :=
      let n := ls_n ls in let m := ls_m ls in let F := fac (ls_fac ls) in
      mkgls (trim (f_L F)) (take (n + m) (f_Dinv F)) (take (n + m) (ls_perm ls)) (zrep (n + m) n0) (zrep (n + m) n0)
        (match ls_rho_inv_vec ls with Some v => Some (take m v) | None => None end) (ls_sigma ls) (ls_rho_inv ls) n m
        (if e =? 1 then None else match ls_KKT ls with Some KKT =>
           Some (trim KKT, take (nP d) (ls_PtoKKT ls), take (nA d) (ls_AtoKKT ls), take m (ls_rhotoKKT ls), (take (n + m) (f_D F), take (n + m) (f_etree F), take (n + m) (f_Lnz F))) | None => None end).
    Definition gen_work (s : settings K) (w : work K) (n m e : Z) : gwork :=
      let vec := negb (st_rho_is_vec s =? 0) in let scal := negb (st_scaling s =? 0) in let zn := zrep n n0 in let zm := zrep m n0 in
      mkgwork (if vec then w_rho_vec w else None) (if vec then w_rho_inv_vec w else None) (if e =? 1 then None else Some (if vec then w_constr_type w else None)) (w_x w) (w_y w) (w_z w)
        (zrep (n + m) n0) zn zm zn zm zm zn zn zm zn zn zn zm (if e =? 1 then None else Some (if scal then (Some zn, Some zn, Some zm) else (None, None, None)))
        (w_rho_inv w) (w_rho_updated w) (w_last_rel_kkt w).
    Record lsw (ls : linsys K) (d : data K) (e : Z) : Prop := mklsw {
      lw_n : 0 <= ls_n ls; lw_m : 0 <= ls_m ls; lw_L : stored (f_L (fac (ls_fac ls))); lw_Dinv : ls_n ls + ls_m ls <= zlen (f_Dinv (fac (ls_fac ls)));
      lw_perm : ls_n ls + ls_m ls <= zlen (ls_perm ls); lw_rv : forall v, ls_rho_inv_vec ls = Some v -> ls_m ls <= zlen v;
      lw_two : e <> 1 -> exists KKT, ls_KKT ls = Some KKT /\ stored KKT /\ 0 <= nP d <= zlen (ls_PtoKKT ls) /\ 0 <= nA d <= zlen (ls_AtoKKT ls) /\ ls_m ls <= zlen (ls_rhotoKKT ls) /\
        ls_n ls + ls_m ls <= zlen (f_D (fac (ls_fac ls))) /\ ls_n ls + ls_m ls <= zlen (f_etree (fac (ls_fac ls))) /\ ls_n ls + ls_m ls <= zlen (f_Lnz (fac (ls_fac ls))) }.
    Record ls_back (ls : linsys K) (e : Z) : Prop := mkls_back {
      lb_L : Forall back (cx (f_L (fac (ls_fac ls)))); lb_Dinv : Forall back (f_Dinv (fac (ls_fac ls))); lb_rv : forall v, ls_rho_inv_vec ls = Some v -> Forall back v;
      lb_c : Forall back [ls_sigma ls; ls_rho_inv ls]; lb_two : e <> 1 -> (forall KKT, ls_KKT ls = Some KKT -> Forall back (cx KKT)) /\ Forall back (f_D (fac (ls_fac ls))) }.
  End ReadAll.

  Section ReadLs.
    Variables (p : prog) (e : Z).
    Hypothesis ND : NoDup (map fst p).
    Hypothesis He : e = 1 \/ e = 2.
    Notation c := (mkcfg e false false false).
    Notation has d := (incl d p).
    Ltac fl H := unfold field; rewrite ?(lookup_in p ND _ _ H).
    Ltac comp := lazy beta iota zeta delta [layout String.eqb Ascii.eqb Bool.eqb index nth length Nat.ltb Nat.leb as_int as_flt as_str as_addr c_embedded c_profiling c_printing c_derivatives Z.eqb Pos.eqb app andb iwork ils opt].
    Ltac inn := match goal with |- In (?n, _) _ => match goal with H : incl ?l _ |- _ => match l with context [(n, _)] => apply H; solve [repeat first [left; reflexivity | right]] end end | |- NoDup _ => exact ND | |- Forall _ _ => auto | _ => first [assumption | lia | auto] end.
    Lemma r_ls ls d KKT : has (dlinsys ls KKT (nP d) (nA d) (1 <? e)) -> lsw ls d e -> ls_back ls e -> (e <> 1 -> ls_KKT ls = Some KKT) ->
      load_linsys rd c p "linsys" (nP d) (nA d) = Some (gen_ls ls d e).
    Proof.
      intros H [Hn Hm HL HDi Hpe Hrv H2] [B1 B2 B3 B4 B5] HK. unfold dlinsys in H. cbv zeta in H.
      repeat match goal with H : incl (_ ++ _) _ |- _ => apply incl_app_inv in H; destruct H end.
      match goal with H : has [("linsys"%string, _)] |- _ => assert (HQ := H _ (or_introl eq_refl)) end.
      inversion B4 as [|? ? X1 X2]; subst. inversion X2 as [|? ? X3 X4]; subst. unfold back in X1, X3.
      assert (HC : forall x y, In (x, y) p -> In (x, y) p) by auto.
      unfold load_linsys. fl HQ. destruct He as [->| ->].
      - change (1 <? 1) with false in *. destruct (ls_rho_inv_vec ls) as [v|] eqn:EV; comp.
        all: rewrite r_csc with (M := f_L (fac (ls_fac ls))) by auto.
        all: rewrite r_arrf with (v := f_Dinv (fac (ls_fac ls))) by inn.
        all: rewrite r_arri with (v := ls_perm ls) by inn.
        all: rewrite !r_buff by inn.
        1: rewrite r_arrf with (v := v) by inn.
        all: rewrite X1, X3; unfold gen_ls; rewrite EV; reflexivity.
      - destruct (H2 ltac:(lia)) as (KKT' & E1 & SK & L1 & L2 & L3 & L4 & L5 & L6). rewrite (HK ltac:(lia)) in E1. injection E1 as <-. destruct (B5 ltac:(lia)) as [B6 B7].
        change (1 <? 2) with true in *. cbv iota in *. unfold dtwo in *.
        repeat match goal with H : incl (_ ++ _) _ |- _ => apply incl_app_inv in H; destruct H end.
        destruct (ls_rho_inv_vec ls) as [v|] eqn:EV; comp.
        all: rewrite r_csc with (M := f_L (fac (ls_fac ls))) by auto.
        all: rewrite r_arrf with (v := f_Dinv (fac (ls_fac ls))) by inn.
        all: rewrite r_arri with (v := ls_perm ls) by inn.
        all: rewrite (r_buff p ND "linsys_bp"), (r_buff p ND "linsys_sol") by inn.
        1: rewrite r_arrf with (v := v) by inn.
        all: rewrite r_csc with (M := KKT) by (auto; apply B6; apply HK; lia).
        all: rewrite r_arri with (v := ls_PtoKKT ls) by inn.
        all: rewrite r_arri with (v := ls_AtoKKT ls) by inn.
        all: rewrite r_arri with (v := ls_rhotoKKT ls) by inn.
        all: rewrite r_arrf with (v := f_D (fac (ls_fac ls))) by inn.
        all: rewrite r_arri with (v := f_etree (fac (ls_fac ls))) by inn.
        all: rewrite r_arri with (v := f_Lnz (fac (ls_fac ls))) by inn.
        all: rewrite (r_bufi p ND "linsys_iwork"), (r_bufi p ND "linsys_bwork"), (r_buff p ND "linsys_fwork") by inn.
        all: rewrite X1, X3; unfold gen_ls; rewrite EV, HK by lia; reflexivity.
    Qed.

    Lemma view_zrep {A} (x : A) k o l : 0 <= o -> 0 <= l -> o + l <= k -> view (zrep k x) o l = Some (zrep l x).
    Proof.
      intros H1 H2 H3. unfold view, zrep. unfold zlen. rewrite repeat_length. replace ((0 <=? o) && (0 <=? l) && (o + l <=? Z.of_nat (Z.to_nat k))) with true by (symmetry; rewrite !andb_true_iff, !Z.leb_le; lia).
      f_equal. assert (HS : forall a b, skipn a (repeat x b) = repeat x (b - a)) by (clear; intros a; induction a as [|a IH]; intros [|b]; cbn; auto).
      assert (HF : forall a b, (a <= b)%nat -> firstn a (repeat x b) = repeat x a) by (clear; intros a; induction a as [|a IH]; intros [|b] H; cbn; auto; [lia|rewrite IH by lia; reflexivity]).
      rewrite HS, HF by lia. reflexivity.
    Qed.
    Lemma r_view nm n off len k : In (nm, BStr "OSQPVectorf" [IRef n off; IInt len]) p -> In (n, BBuf k) p -> 0 <= off -> 0 <= len -> off + len <= k -> vecf rd c p (Some (IAddr nm)) = Some (zrep len n0).
    Proof. intros H1 H2 O1 O2 O3. unfold vecf. fl H1. comp. unfold arrf. rewrite (lookup_in p ND _ _ H2). apply view_zrep; auto. Qed.

    Record wk_ok (s : settings K) (w : work K) (e : Z) : Prop := mkwk_ok {
      wk_rv : st_rho_is_vec s <> 0 -> exists v, w_rho_vec w = Some v /\ Forall back v;
      wk_riv : st_rho_is_vec s <> 0 -> exists v, w_rho_inv_vec w = Some v /\ Forall back v;
      wk_ct : st_rho_is_vec s <> 0 -> e <> 1 -> exists v, w_constr_type w = Some v;
      wk_b : Forall back [w_rho_inv w; w_last_rel_kkt w]; wk_x : Forall back (w_x w); wk_y : Forall back (w_y w); wk_z : Forall back (w_z w) }.
    Definition sval {A} (o : option (list A)) : list A := match o with Some v => v | None => [] end.
    Ltac bufs c' := repeat match goal with
        | H : has (dbuf ?x ?k) |- _ => apply (r_buf c' p ND) in H; [|assumption]
        | H : has (dbuf0 ?x ?k) |- _ => apply (r_buf0 c' p ND) in H; [|assumption]
        end.
    Ltac fin := repeat match goal with H : vecf _ _ _ _ = Some _ |- _ => rewrite H; clear H end; repeat match goal with H : rd (fmt _) = _ |- _ => rewrite H; clear H end; reflexivity.
    Lemma r_work s w ls KKT sc a b n m : 0 <= n -> 0 <= m -> wk_ok s w e ->
      has (dwork w KKT ls sc (sval (w_rho_vec w)) (sval (w_rho_inv_vec w)) (sval (w_constr_type w)) a b n m (negb (st_rho_is_vec s =? 0)) (1 <? e) (negb (st_scaling s =? 0))) ->
      load_work rd c p "work" = Some (gen_work s w n m e).
    Proof.
      intros Hn Hm [R1 R2 R3 B1 B2 B3 B4] H. inversion B1 as [|? ? X1 X2]; subst. inversion X2 as [|? ? X3 X4]; subst. unfold back in X1, X3.
      unfold dwork in H. apply incl_app_inv in H. destruct H as [_ H]. apply incl_app_inv in H. destruct H as [_ H].
      apply incl_app_inv in H. destruct H as [HV H]. do 3 (apply incl_app_inv in H; destruct H as [? H]).
      apply incl_app_inv in H. destruct H as [HX H]. do 10 (apply incl_app_inv in H; destruct H as [? H]).
      apply incl_app_inv in H. destruct H as [HT H]. apply incl_app_inv in H. destruct H as [_ H].
      assert (HQ := H _ (or_introl eq_refl)). clear H.
      assert (HX1 : vecf rd c p (Some (IAddr "work_xz_tilde")) = Some (zrep (n + m) n0)) by (apply (r_view "work_xz_tilde" "work_xz_tilde_val" 0 (n + m) (n + m)); inn).
      assert (HX2 : vecf rd c p (Some (IAddr "work_xtilde_view")) = Some (zrep n n0)) by (apply (r_view "work_xtilde_view" "work_xz_tilde_val" 0 n (n + m)); inn).
      assert (HX3 : vecf rd c p (Some (IAddr "work_ztilde_view")) = Some (zrep m n0)) by (apply (r_view "work_ztilde_view" "work_xz_tilde_val" n m (n + m)); inn).
      assert (HY1 : vecf rd c p (Some (IAddr "work_x")) = Some (w_x w)) by (apply r_vec; auto).
      assert (HY2 : vecf rd c p (Some (IAddr "work_y")) = Some (w_y w)) by (apply r_vec; auto).
      assert (HY3 : vecf rd c p (Some (IAddr "work_z")) = Some (w_z w)) by (apply r_vec; auto).
      bufs constr:(mkcfg e false false false).
      unfold load_work. fl HQ. unfold gen_work.
      destruct (st_rho_is_vec s =? 0) eqn:EV; cbn [negb] in *; cbv iota in *.
      - clear R1 R2 R3 HV. destruct He as [->| ->].
        + change (1 <? 1) with false in *. destruct (st_scaling s =? 0); cbn [negb]; comp; fin.
        + change (1 <? 2) with true in *. cbv iota in HT. do 2 (apply incl_app_inv in HT; destruct HT as [? HT]). bufs constr:(mkcfg 2 false false false). destruct (st_scaling s =? 0); cbn [negb]; comp; fin.
      - apply Z.eqb_neq in EV. destruct (R1 EV) as (v1 & E1 & V1), (R2 EV) as (v2 & E2 & V2). rewrite E1, E2 in *. cbn [sval] in HV. do 2 (apply incl_app_inv in HV; destruct HV as [? HV]).
        assert (HZ1 : vecf rd c p (Some (IAddr "work_rho_vec")) = Some v1) by (apply r_vec; auto). assert (HZ2 : vecf rd c p (Some (IAddr "work_rho_inv_vec")) = Some v2) by (apply r_vec; auto).
        destruct He as [->| ->].
        + change (1 <? 1) with false in *. destruct (st_scaling s =? 0); cbn [negb]; comp; fin.
        + change (1 <? 2) with true in *. cbv iota in HT, HV. do 2 (apply incl_app_inv in HT; destruct HT as [? HT]). bufs constr:(mkcfg 2 false false false).
          destruct (R3 EV ltac:(lia)) as (v3 & E3). rewrite E3 in *. cbn [sval] in HV. apply (r_veci (mkcfg 2 false false false) p ND) in HV. destruct (st_scaling s =? 0); cbn [negb]; comp; rewrite ?HV; fin.
    Qed.
  End ReadLs.

  (** *** The main statement *)
  (** The arrays are as long as the headers say, the parts the chosen options need are there. *)
  Record writable (s : solver K) (ls : linsys K) (e : Z) : Prop := mkwritable {
    wt_e : e = 1 \/ e = 2; wt_n : 0 <= d_n (w_data (sv_work s)); wt_m : 0 <= d_m (w_data (sv_work s));
    wt_P : stored (d_P (w_data (sv_work s))); wt_A : stored (d_A (w_data (sv_work s)));
    wt_nP : cn (d_P (w_data (sv_work s))) = d_n (w_data (sv_work s)); wt_nA : cn (d_A (w_data (sv_work s))) = d_n (w_data (sv_work s));
    wt_linsys : w_linsys (sv_work s) = Some ls; wt_lsn : ls_n ls = d_n (w_data (sv_work s)); wt_lsm : ls_m ls = d_m (w_data (sv_work s)); wt_ls : lsw ls (w_data (sv_work s)) e;
    wt_rv : st_rho_is_vec (sv_settings s) <> 0 -> w_rho_vec (sv_work s) <> None /\ w_rho_inv_vec (sv_work s) <> None /\ (e <> 1 -> w_constr_type (sv_work s) <> None);
    wt_sc : st_scaling (sv_settings s) <> 0 -> w_scaling (sv_work s) <> None }.
  (** All numbers written survive being printed and read. *)
  Record printable (s : solver K) (ls : linsys K) (e : Z) : Prop := mkprintable {
    pr_settings : img_settings_ok (sv_settings s); pr_info : Forall back [OSQP_INFTY K; i_rho_estimate (sv_info s)];
    pr_P : Forall back (cx (d_P (w_data (sv_work s)))); pr_A : Forall back (cx (d_A (w_data (sv_work s)))); pr_q : Forall back (d_q (w_data (sv_work s)));
    pr_l : Forall back (d_l (w_data (sv_work s))); pr_u : Forall back (d_u (w_data (sv_work s))); pr_ls : ls_back ls e;
    pr_rv : forall v, w_rho_vec (sv_work s) = Some v -> Forall back v; pr_riv : forall v, w_rho_inv_vec (sv_work s) = Some v -> Forall back v;
    pr_w : Forall back [w_rho_inv (sv_work s); w_last_rel_kkt (sv_work s)]; pr_x : Forall back (w_x (sv_work s)); pr_y : Forall back (w_y (sv_work s)); pr_z : Forall back (w_z (sv_work s));
    pr_sc : forall sc, w_scaling (sv_work s) = Some sc -> Forall back [sc_c sc; sc_cinv sc] /\ Forall back (sc_D sc) /\ Forall back (sc_E sc) /\ Forall back (sc_Dinv sc) /\ Forall back (sc_Einv sc) }.
  (** Spec: the structure a generated program should start from. *)
  Definition image (s : solver K) (ls : linsys K) (e : Z) : @gen K :=
    let w := sv_work s in let d := w_data w in let n := d_n d in let m := d_m d in
    mkgen (gen_settings (sv_settings s)) (gen_info (sv_info s)) (mksolution (zrep n n0) (zrep m n0) (zrep m n0) (zrep n n0)) (gen_data d) (1, 0)
      (if negb (st_scaling (sv_settings s) =? 0) then w_scaling w else None) (gen_ls ls d e) (gen_work (sv_settings s) w n m e).

  Lemma nth_error_firstn' {A} (l : list A) i k : (i < k)%nat -> nth_error (firstn k l) i = nth_error l i.
  Proof. revert i k. induction l as [|x l IH]; intros [|i] [|k] H; cbn; auto; try lia. apply IH. lia. Qed.
  Lemma zget_znth0 l i : 0 <= i < zlen l -> zget l i = Some (znth 0 l i).
  Proof. intros H. apply zget_Some. exact H. Qed.
  Lemma w_ls ls d e KKT : lsw ls d e -> e = 1 \/ e = 2 -> stored (d_P d) -> stored (d_A d) -> cn (d_P d) = d_n d -> cn (d_A d) = d_n d -> 0 <= d_n d -> ls_n ls = d_n d -> (e <> 1 -> ls_KKT ls = Some KKT) ->
    write_linsys fmt fac (Some ls) d e = emit (dlinsys ls KKT (nP d) (nA d) (1 <? e)).
  Proof.
    intros [Hn Hm HL HDi Hpe Hrv H2] He [SP _] [SA _] CP CA Hd EN HK. unfold write_linsys, dlinsys. cbv zeta.
    rewrite (w_csc _ _ HL), w_vecf, w_veci by lia. rewrite EN in *. rewrite !zget_znth0 by (rewrite ?CP, ?CA in *; lia). change (znth 0 (cp (d_P d)) (d_n d)) with (nP d). change (znth 0 (cp (d_A d)) (d_n d)) with (nA d).
    assert (HR : match ls_rho_inv_vec ls with Some v => write_vecf fmt (Some v) (ls_m ls) "linsys_rho_inv_vec" | None => emit [] end = emit (match ls_rho_inv_vec ls with Some v => [("linsys_rho_inv_vec"%string, bodyf v (ls_m ls))] | None => [] end)).
    { destruct (ls_rho_inv_vec ls) as [v|]; [|reflexivity]. rewrite w_vecf by (specialize (Hrv v eq_refl); lia). reflexivity. }
    rewrite HR. destruct He as [->| ->].
    - change (1 <? 1) with false. cbv iota. rewrite !w_seq. unfold ils. destruct (ls_rho_inv_vec ls); reflexivity.
    - change (1 <? 2) with true. cbv iota. destruct (H2 ltac:(lia)) as (KKT' & E1 & SK & L1 & L2 & L3 & L4 & L5 & L6). rewrite (HK ltac:(lia)) in *. injection E1 as <-.
      rewrite (w_csc _ _ SK), !w_veci, !w_vecf by lia. rewrite !w_seq. unfold ils, dtwo. destruct (ls_rho_inv_vec ls); reflexivity.
  Qed.

  Fixpoint nodupb (l : list string) : bool := match l with [] => true | x :: l => negb (existsb (String.eqb x) l) && nodupb l end.
  Lemma nodupb_ok l : nodupb l = true -> NoDup l.
  Proof.
    induction l as [|x l IH]; intros H; [constructor|]. cbn in H. apply andb_prop in H. destruct H as [H1 H2]. constructor; [|auto].
    intros HI. assert (E : existsb (String.eqb x) l = true) by (apply existsb_exists; exists x; split; [auto|apply String.eqb_refl]). rewrite E in H1. discriminate.
  Qed.
  Definition dsettings (s : settings K) : prog := match write_settings fmt s with Some (_, d) => d | None => [] end.
  Definition dinfo (i : info K) : prog := match write_info fmt i with Some (_, d) => d | None => [] end.
  Definition dall (s : solver K) (ls : linsys K) (KKT : csc K) (sc : scaling K) (e : Z) : prog :=
    let w := sv_work s in let d := w_data w in
    (dsettings (sv_settings s) ++ dsol (d_n d) (d_m d) ++ dinfo (sv_info s) ++
     dwork w KKT ls sc (sval (w_rho_vec w)) (sval (w_rho_inv_vec w)) (sval (w_constr_type w)) (nP d) (nA d) (d_n d) (d_m d) (negb (st_rho_is_vec (sv_settings s) =? 0)) (1 <? e) (negb (st_scaling (sv_settings s) =? 0)) ++
     [("solver"%string, BStr "OSQPSolver" [IAddr "settings"; IAddr "sol"; IAddr "info"; IAddr "work"])])%list.
  Lemma dall_nodup s ls KKT sc e : NoDup (map fst (dall s ls KKT sc e)).
  Proof.
    apply nodupb_ok. unfold dall, dwork, dlinsys, ddata, dmat, dbuf0. cbv zeta.
    destruct (negb (st_rho_is_vec (sv_settings s) =? 0)), (1 <? e), (negb (st_scaling (sv_settings s) =? 0)), (0 <? d_m (w_data (sv_work s))), (ls_rho_inv_vec ls); vm_compute; reflexivity.
  Qed.

  Lemma write_all s ls KKT sc e : writable s ls e -> (e <> 1 -> ls_KKT ls = Some KKT) -> (st_scaling (sv_settings s) <> 0 -> w_scaling (sv_work s) = Some sc) ->
    write_solver fmt fac s e = Some (0, dall s ls KKT sc e).
  Proof.
    intros [We Wn Wm WP WA WnP WnA Wl Wln Wlm Wls Wrv Wsc] HK HS. unfold write_solver, write_workspace. cbv zeta. rewrite Wl, (w_ls ls _ e KKT) by auto.
    unfold write_data. rewrite !w_mat, !w_vec by auto. rewrite !w_buf, !w_buf0.
    replace (write_settings fmt (sv_settings s)) with (emit (dsettings (sv_settings s))) by reflexivity. replace (write_info fmt (sv_info s)) with (emit (dinfo (sv_info s))) by reflexivity.
    assert (HV : (if negb (st_rho_is_vec (sv_settings s) =? 0) then write_OSQPVectorf fmt (w_rho_vec (sv_work s)) "work_rho_vec" +++ write_OSQPVectorf fmt (w_rho_inv_vec (sv_work s)) "work_rho_inv_vec" +++
       (if 1 <? e then write_OSQPVectori (w_constr_type (sv_work s)) "work_constr_type" else emit []) else emit []) =
      emit (if negb (st_rho_is_vec (sv_settings s) =? 0) then (dvec "work_rho_vec" (sval (w_rho_vec (sv_work s))) ++ dvec "work_rho_inv_vec" (sval (w_rho_inv_vec (sv_work s))) ++ (if 1 <? e then dveci "work_constr_type" (sval (w_constr_type (sv_work s))) else []))%list else [])).
    { destruct (st_rho_is_vec (sv_settings s) =? 0) eqn:E; [reflexivity|]. apply Z.eqb_neq in E. destruct (Wrv E) as (R1 & R2 & R3).
      destruct (w_rho_vec (sv_work s)); [|congruence]. destruct (w_rho_inv_vec (sv_work s)); [|congruence]. cbn [negb sval]. rewrite !w_vec. destruct We as [->| ->].
      - reflexivity.
      - change (1 <? 2) with true. cbv iota. destruct (w_constr_type (sv_work s)); [|exfalso; apply R3; [lia|reflexivity]]. cbn [sval]. rewrite w_vec_i. reflexivity. }
    rewrite HV.
    assert (HS2 : (if negb (st_scaling (sv_settings s) =? 0) then write_scaling fmt (w_scaling (sv_work s)) else emit []) = emit (if negb (st_scaling (sv_settings s) =? 0) then dscaling sc else [])).
    { destruct (st_scaling (sv_settings s) =? 0) eqn:E; [reflexivity|]. apply Z.eqb_neq in E. rewrite (HS E). cbn [negb]. unfold write_scaling. rewrite !w_vec. reflexivity. }
    rewrite HS2. unfold write_solution.
    assert (HT : (if 1 <? e then emit (dbuf "work_D_temp" (d_n (w_data (sv_work s)))) +++ emit (dbuf "work_D_temp_A" (d_n (w_data (sv_work s)))) +++ emit (dbuf0 "work_E_temp" (d_m (w_data (sv_work s)))) else emit []) =
       emit (if 1 <? e then (dbuf "work_D_temp" (d_n (w_data (sv_work s))) ++ dbuf "work_D_temp_A" (d_n (w_data (sv_work s))) ++ dbuf0 "work_E_temp" (d_m (w_data (sv_work s))))%list else [])) by (destruct (1 <? e); reflexivity).
    rewrite HT. rewrite !w_seq. reflexivity.
  Qed.

  Theorem gen_ok s ls e : writable s ls e -> printable s ls e ->
    exists ds, write_solver fmt fac s e = Some (0, ds) /\ NoDup (map fst ds) /\ load rd (mkcfg e false false false) ds = Some (image s ls e).
  Proof.
    intros HW HB. pose proof HW as [We Wn Wm WP WA WnP WnA Wl Wln Wlm Wls Wrv Wsc]. destruct HB as [B1 B2 B3 B4 B5 B6 B7 B8 B9 B10 B11 B12 B13 B14 B15].
    assert (exists KKT, e <> 1 -> ls_KKT ls = Some KKT) as (KKT & HK).
    { destruct We as [->| ->]; [exists (mkcsc 0 0 [] [] [] 0 0); lia|]. destruct (lw_two _ _ _ Wls ltac:(lia)) as (KKT & E & _). exists KKT. auto. }
    assert (exists sc, st_scaling (sv_settings s) <> 0 -> w_scaling (sv_work s) = Some sc) as (sc & HS).
    { destruct (w_scaling (sv_work s)) as [sc|]; [exists sc; auto|]. exists (mkscaling n0 [] [] n0 [] []). intros H. exfalso. exact (Wsc H eq_refl). }
    exists (dall s ls KKT sc e). split; [apply write_all; auto|]. pose proof (dall_nodup s ls KKT sc e) as ND. split; [exact ND|].
    set (p := dall s ls KKT sc e) in *. assert (HI : incl p p) by (intros x; auto). unfold p at 1 in HI. unfold dall in HI. cbv zeta in HI.
    apply incl_app_inv in HI as [I1 HI]. apply incl_app_inv in HI as [I2 HI]. apply incl_app_inv in HI as [I3 HI]. apply incl_app_inv in HI as [I4 HI]. assert (HQ := HI _ (or_introl eq_refl)). clear HI.
    pose proof I4 as I5. unfold dwork in I5. apply incl_app_inv in I5 as [I5 I6]. apply incl_app_inv in I6 as [I6 I7]. do 16 (apply incl_app_inv in I7 as [_ I7]). apply incl_app_inv in I7 as [I7 I8]. assert (HQ2 := I8 _ (or_introl eq_refl)). clear I8.
    assert (L1 := r_settings (mkcfg e false false false) p ND (sv_settings s) (dsettings (sv_settings s)) eq_refl I1 B1).
    assert (L2 := r_info (mkcfg e false false false) p ND (sv_info s) (dinfo (sv_info s)) eq_refl I3 B2).
    assert (L3 := r_data (mkcfg e false false false) p ND _ I5 WP WA B3 B4 B5 B6 B7).
    assert (L4 := r_sol (mkcfg e false false false) p ND _ _ I2 Wn Wm).
    assert (L5 := r_ls p e ND We ls _ KKT I6 Wls B8 HK).
    assert (L6 : load_work rd (mkcfg e false false false) p "work" = Some (gen_work (sv_settings s) (sv_work s) (d_n (w_data (sv_work s))) (d_m (w_data (sv_work s))) e)).
    { apply (r_work p e ND We (sv_settings s) (sv_work s) ls KKT sc (nP (w_data (sv_work s))) (nA (w_data (sv_work s)))); auto. constructor; auto.
      - intros H. destruct (Wrv H) as (R1 & R2 & R3). destruct (w_rho_vec (sv_work s)); [|congruence]. eauto.
      - intros H. destruct (Wrv H) as (R1 & R2 & R3). destruct (w_rho_inv_vec (sv_work s)); [|congruence]. eauto.
      - intros H H'. destruct (Wrv H) as (R1 & R2 & R3). specialize (R3 H'). destruct (w_constr_type (sv_work s)); [|congruence]. eauto. }
    assert (HNP : zget (cp (d_P (gen_data (w_data (sv_work s))))) (d_n (w_data (sv_work s))) = Some (nP (w_data (sv_work s)))).
    { cbn. unfold take. destruct WP as [WP _]. rewrite WnP in *. unfold nP. rewrite <- zget_znth0 by lia. unfold zget. destruct (d_n (w_data (sv_work s)) <? 0) eqn:E0; [lia|].
      apply nth_error_firstn'. lia. }
    assert (HNA : zget (cp (d_A (gen_data (w_data (sv_work s))))) (d_n (w_data (sv_work s))) = Some (nA (w_data (sv_work s)))).
    { cbn. unfold take. destruct WA as [WA _]. rewrite WnA in *. unfold nA. rewrite <- zget_znth0 by lia. unfold zget. destruct (d_n (w_data (sv_work s)) <? 0) eqn:E0; [lia|].
      apply nth_error_firstn'. lia. }
    assert (F : as_addr (field (mkcfg e false false false) p "work" "data") = Some (Some "data"%string) /\ as_addr (field (mkcfg e false false false) p "work" "linsys_solver") = Some (Some "linsys"%string) /\
      as_addr (field (mkcfg e false false false) p "work" "scaling") = Some (if negb (st_scaling (sv_settings s) =? 0) then Some "scaling"%string else None)).
    { unfold field. rewrite (lookup_in p ND _ _ HQ2). clear - We. destruct (negb (st_rho_is_vec (sv_settings s) =? 0)), (negb (st_scaling (sv_settings s) =? 0)), We as [->| ->];
        lazy beta iota zeta delta [layout String.eqb Ascii.eqb Bool.eqb index nth length Nat.ltb Nat.leb as_addr c_embedded c_profiling c_printing c_derivatives Z.eqb Pos.eqb Z.ltb Z.compare Pos.compare Pos.compare_cont app iwork]; repeat split; reflexivity. }
    destruct F as (F1 & F2 & F3).
    assert (G : as_addr (field (mkcfg e false false false) p "solver" "settings") = Some (Some "settings"%string) /\ as_addr (field (mkcfg e false false false) p "solver" "solution") = Some (Some "sol"%string) /\
      as_addr (field (mkcfg e false false false) p "solver" "info") = Some (Some "info"%string) /\ as_addr (field (mkcfg e false false false) p "solver" "work") = Some (Some "work"%string)).
    { unfold field. rewrite (lookup_in p ND _ _ HQ). repeat split; reflexivity. }
    destruct G as (G1 & G2 & G3 & G4).
    unfold load. rewrite G1, G2, G3, G4, F1, F2, F3, L1, L2, L3. cbv beta iota. cbn [fst snd]. change (d_n (gen_data (w_data (sv_work s)))) with (d_n (w_data (sv_work s))). change (d_m (gen_data (w_data (sv_work s)))) with (d_m (w_data (sv_work s))).
    rewrite L4, HNP, HNA. cbv beta iota. unfold image. cbv zeta.
    destruct (st_scaling (sv_settings s) =? 0) eqn:ES; cbn [negb]; cbv iota.
    - rewrite L5, L6. reflexivity.
    - apply Z.eqb_neq in ES. cbn [negb] in I7. destruct (B15 sc (HS ES)) as (C1 & C2 & C3 & C4 & C5). rewrite (r_scaling (mkcfg e false false false) p ND sc I7 C1 C2 C3 C4 C5). cbv beta iota. rewrite L5, L6, (HS ES). reflexivity.
  Qed.

  (** With profiling, printing or derivatives switched on in the generated code the last two initialisers of the workspace go to other members. *)
  Theorem misplaced s ls e : writable s ls e ->
    exists ds, write_solver fmt fac s e = Some (0, ds) /\
    (forall pr dv, field (mkcfg e true pr dv) ds "work" "timer" = Some (IInt (w_rho_updated (sv_work s))) /\ field (mkcfg e true pr dv) ds "work" "first_run" = Some (IFlt (fmt (w_last_rel_kkt (sv_work s)))) /\
      field (mkcfg e true pr dv) ds "work" "rho_updated" = Some (IInt 0) /\ field (mkcfg e true pr dv) ds "work" "last_rel_kkt" = Some (IInt 0)) /\
    (field (mkcfg e false true false) ds "work" "summary_printed" = Some (IInt (w_rho_updated (sv_work s))) /\
      field (mkcfg e false true false) ds "work" "rho_updated" = Some (IFlt (fmt (w_last_rel_kkt (sv_work s)))) /\ field (mkcfg e false true false) ds "work" "last_rel_kkt" = Some (IInt 0)) /\
    (field (mkcfg e false false true) ds "work" "derivative_data" = Some (IInt (w_rho_updated (sv_work s))) /\
      field (mkcfg e false false true) ds "work" "rho_updated" = Some (IFlt (fmt (w_last_rel_kkt (sv_work s)))) /\ field (mkcfg e false false true) ds "work" "last_rel_kkt" = Some (IInt 0)) /\
    (field (mkcfg e false true true) ds "work" "summary_printed" = Some (IInt (w_rho_updated (sv_work s))) /\
      field (mkcfg e false true true) ds "work" "derivative_data" = Some (IFlt (fmt (w_last_rel_kkt (sv_work s)))) /\ field (mkcfg e false true true) ds "work" "last_rel_kkt" = Some (IInt 0)).
  Proof.
    intros HW. pose proof HW as [We Wn Wm WP WA WnP WnA Wl Wln Wlm Wls Wrv Wsc].
    assert (exists KKT, e <> 1 -> ls_KKT ls = Some KKT) as (KKT & HK).
    { destruct We as [->| ->]; [exists (mkcsc 0 0 [] [] [] 0 0); lia|]. destruct (lw_two _ _ _ Wls ltac:(lia)) as (KKT & E & _). exists KKT. auto. }
    assert (exists sc, st_scaling (sv_settings s) <> 0 -> w_scaling (sv_work s) = Some sc) as (sc & HS).
    { destruct (w_scaling (sv_work s)) as [sc|]; [exists sc; auto|]. exists (mkscaling n0 [] [] n0 [] []). intros H. exfalso. exact (Wsc H eq_refl). }
    exists (dall s ls KKT sc e). split; [apply write_all; auto|]. pose proof (dall_nodup s ls KKT sc e) as ND.
    set (p := dall s ls KKT sc e) in *. assert (HI : incl p p) by (intros x; auto). unfold p at 1 in HI. unfold dall in HI. cbv zeta in HI.
    apply incl_app_inv in HI as [I1 HI]. apply incl_app_inv in HI as [I2 HI]. apply incl_app_inv in HI as [I3 HI]. apply incl_app_inv in HI as [I4 HI]. clear HI.
    pose proof I4 as I5. unfold dwork in I5. apply incl_app_inv in I5 as [I5 I6]. apply incl_app_inv in I6 as [I6 I7]. do 16 (apply incl_app_inv in I7 as [_ I7]). apply incl_app_inv in I7 as [I7 I8]. assert (HQ2 := I8 _ (or_introl eq_refl)). clear I8.
    unfold field. rewrite (lookup_in p ND _ _ HQ2). clear - We. split; [intros pr dv; destruct pr, dv|]; destruct (negb (st_rho_is_vec (sv_settings s) =? 0)), (negb (st_scaling (sv_settings s) =? 0)), We as [->| ->];
        lazy beta iota zeta delta [layout String.eqb Ascii.eqb Bool.eqb index nth length Nat.ltb Nat.leb as_addr c_embedded c_profiling c_printing c_derivatives Z.eqb Pos.eqb Z.ltb Z.compare Pos.compare Pos.compare_cont app iwork]; repeat split; reflexivity.
  Qed.

  (** The copy of a matrix whose arrays are exactly as long as its header says is the matrix itself. *)
  Lemma trim_id M : zlen (cp M) = cn M + 1 -> zlen (ci M) = cnzmax M -> zlen (cx M) = cnzmax M -> trim M = M.
  Proof. intros H1 H2 H3. unfold trim. rewrite <- H1. rewrite take_all. rewrite <- H2 at 1. rewrite take_all. rewrite <- H3 at 1. rewrite take_all. destruct M; reflexivity. Qed.
End Gen.
