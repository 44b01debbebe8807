(** The invariant of an initialised solver, for every number system: sizes of all vectors, well-formed
    matrices, and a linear system solver that belongs to the stored matrices and rho. *)
From Coq Require Import ZArith List Bool Lia String.
From Verif Require Import Num Arr ArrFacts Csc CscSpec CscFacts CscFacts2 Scatter CscFacts4 CscFacts5
  Placed Vec Types Kkt Linsys Scaling Validate Auxil VecFacts LinsysFacts LinsysSolve.
Import ListNotations.
Open Scope Z_scope.

(** [safe e Q]: e does not run into undefined behaviour and its result satisfies Q. *)
Definition safe {A} (e : option A) (Q : A -> Prop) : Prop := exists a, e = Some a /\ Q a.

Lemma safe_ret {A} (a : A) (Q : A -> Prop) : Q a -> safe (Some a) Q.
Proof. intros; exists a; auto. Qed.
Lemma safe_bind {A B} (e : option A) (k : A -> option B) (P : A -> Prop) (Q : B -> Prop) :
  safe e P -> (forall a, P a -> safe (k a) Q) -> safe (match e with Some a => k a | None => None end) Q.
Proof. intros (a & -> & Ha) H. auto. Qed.
Lemma safe_weaken {A} (e : option A) (P Q : A -> Prop) : safe e P -> (forall a, P a -> Q a) -> safe e Q.
Proof. intros (a & -> & Ha) H. exists a; auto. Qed.

Section Kernels.
  Context {K : NumOps}.
  Lemma safe_v1 {X A C} (x : list X) (f : A -> C) a : zlen x = zlen a -> safe (v1 x f a) (fun r => zlen r = zlen x).
  Proof. intros H. rewrite v1_ok by auto. apply safe_ret. rewrite zlen_map. auto. Qed.
  Lemma safe_v2 {X A B C} (x : list X) (f : A -> B -> C) a b : zlen x = zlen a -> zlen a = zlen b ->
    safe (v2 x f a b) (fun r => zlen r = zlen x).
  Proof. intros H H'. rewrite v2_ok by auto. apply safe_ret. rewrite zlen_zip by lia. lia. Qed.
  Lemma safe_v3 {X A B C D} (x : list X) (f : A -> B -> C -> D) a b c : zlen x = zlen a -> zlen a = zlen b -> zlen b = zlen c ->
    safe (v3 x f a b c) (fun r => zlen r = zlen x).
  Proof. intros H H' H''. rewrite v3_ok by auto. apply safe_ret. rewrite zlen_zip3 by lia. lia. Qed.
  Lemma safe_view {A} (a : list A) h n : 0 <= h -> 0 <= n -> h + n <= zlen a -> safe (view a h n) (fun r => zlen r = n).
  Proof.
    intros H1 H2 H3. unfold view. replace ((0 <=? h) && (0 <=? n) && (h + n <=? zlen a)) with true by lia.
    apply safe_ret. rewrite zlen_firstn; [lia|rewrite zlen_skipn; lia].
  Qed.
  Lemma safe_view_write {A} (a : list A) h n v : 0 <= h -> 0 <= n -> h + n <= zlen a -> zlen v = n ->
    safe (view_write a h n v) (fun r => zlen r = zlen a).
  Proof.
    intros H1 H2 H3 H4. unfold view_write.
    replace ((0 <=? h) && (0 <=? n) && (h + n <=? zlen a) && (zlen v =? n)) with true by lia.
    apply safe_ret. rewrite !zlen_app, zlen_firstn, zlen_skipn; lia.
  Qed.
  Lemma safe_add_scaled al (x : list K) sa a sb b : zlen x = zlen a -> zlen a = zlen b ->
    safe (vf_add_scaled al x sa a sb b) (fun r => zlen r = zlen x).
  Proof. intros. unfold vf_add_scaled. destruct (al && _); apply safe_v2; auto. Qed.
  Lemma safe_add_scaled3 al (x : list K) sa a sb b sc c : zlen x = zlen a -> zlen a = zlen b -> zlen b = zlen c ->
    safe (vf_add_scaled3 al x sa a sb b sc c) (fun r => zlen r = zlen x).
  Proof. intros. unfold vf_add_scaled3. destruct (al && _); apply safe_v3; auto. Qed.
  Lemma safe_dot (a b : list K) : zlen a = zlen b -> safe (vf_dot_prod a b) (fun _ => True).
  Proof. intros. unfold vf_dot_prod. eapply safe_bind; [apply safe_v2; auto|]. intros; apply safe_ret; auto. Qed.
  Lemma safe_dot_signed (a b : list K) sg : zlen a = zlen b -> safe (vf_dot_prod_signed a b sg) (fun _ => True).
  Proof.
    intros. unfold vf_dot_prod_signed. destruct (sg =? 1); [|destruct (sg =? -1); [|apply safe_dot; auto]];
    (eapply safe_bind; [apply safe_v2; auto|]; intros; apply safe_ret; auto).
  Qed.
  Lemma safe_scaled_norm (a b : list K) : zlen a = zlen b -> safe (vf_scaled_norm_inf a b) (fun _ => True).
  Proof. intros. unfold vf_scaled_norm_inf. eapply safe_bind; [apply safe_v2; auto|]. intros; apply safe_ret; auto. Qed.
  Lemma safe_all_leq (a b : list K) : zlen a = zlen b -> safe (vf_all_leq a b) (fun _ => True).
  Proof. intros. unfold vf_all_leq. eapply safe_bind; [apply safe_v2; auto|]. intros; apply safe_ret; auto. Qed.
  Lemma safe_in_reccone (y l u : list K) i t : zlen y = zlen l -> zlen l = zlen u -> safe (vf_in_reccone y l u i t) (fun _ => True).
  Proof. intros. unfold vf_in_reccone. eapply safe_bind; [apply safe_v3; auto|]. intros; apply safe_ret; auto. Qed.
  Lemma safe_Axpy (A : csc K) x y a b : wf A -> cn A <= zlen x -> cm A <= zlen y ->
    safe (csc_Axpy A x y a b) (fun r => zlen r = zlen y).
  Proof. intros. apply csc_Axpy_safe; auto. Qed.
  Lemma safe_Atxpy (A : csc K) x y a b : wf A -> cm A <= zlen x -> cn A <= zlen y ->
    safe (csc_Atxpy A x y a b) (fun r => zlen r = zlen y).
  Proof. intros. apply csc_Atxpy_safe; auto. Qed.
  Lemma safe_symv (A : csc K) x y a b : wf A -> cm A = cn A -> cn A <= zlen x -> cm A <= zlen y ->
    safe (csc_Axpy_sym_triu A x y a b) (fun r => zlen r = zlen y).
  Proof. intros. apply csc_Axpy_sym_triu_safe; auto. Qed.
  Lemma safe_to_raw (bv a : list K) : zlen a <= zlen bv -> safe (vf_to_raw bv a) (fun r => zlen r = zlen bv).
  Proof. intros. pose proof (zlen_nonneg a). apply safe_view_write; lia. Qed.
  Lemma safe_from_raw (b av : list K) : zlen b <= zlen av -> safe (vf_from_raw b av) (fun r => zlen r = zlen b).
  Proof. intros. pose proof (zlen_nonneg b). apply safe_view; lia. Qed.
End Kernels.

(** Same sparsity pattern. *)
Definition same_pat {K : NumOps} (M M' : csc K) : Prop := M' = set_x M (cx M') /\ zlen (cx M') = zlen (cx M).

Section Pat.
  Context {K : NumOps}.
  Lemma same_pat_intro (M M' : csc K) : cm M' = cm M -> cn M' = cn M -> cp M' = cp M -> ci M' = ci M ->
    cnzmax M' = cnzmax M -> cnz M' = cnz M -> zlen (cx M') = zlen (cx M) -> same_pat M M'.
  Proof. intros. split; auto. destruct M, M'; cbn in *; subst; auto. Qed.
  Lemma same_pat_refl (M : csc K) : same_pat M M.
  Proof. split; auto. destruct M; auto. Qed.
  Lemma same_pat_trans (M1 M2 M3 : csc K) : same_pat M1 M2 -> same_pat M2 M3 -> same_pat M1 M3.
  Proof. intros [E1 L1] [E2 L2]. split; [|lia]. rewrite E2, E1. reflexivity. Qed.
  Lemma same_pat_fields (M M' : csc K) : same_pat M M' -> cm M' = cm M /\ cn M' = cn M /\ cp M' = cp M /\ ci M' = ci M.
  Proof. intros [-> _]. auto. Qed.
  Lemma same_pat_wf (M M' : csc K) : same_pat M M' -> wf M -> wf M'.
  Proof. intros [E HL] W. rewrite E. apply wf_set_x; auto. pose proof (wf_xlen _ W). lia. Qed.
  Lemma same_pat_triu (M M' : csc K) : same_pat M M' -> triu M -> triu M'.
  Proof. intros [E HL] W. rewrite E. exact W. Qed.
  Lemma same_pat_nnz (M M' : csc K) : same_pat M M' -> nnz M' = nnz M.
  Proof. intros [E HL]. rewrite E. auto. Qed.

  Lemma safe_lmult (A : csc K) D : wf A -> cm A <= zlen D -> safe (csc_lmult_diag A D) (same_pat A).
  Proof.
    intros W HD. destruct (csc_lmult_diag_spec A n0 D W HD) as (A' & -> & H1 & H2 & H3 & H4 & H5 & H6 & H7 & _).
    apply safe_ret. apply same_pat_intro; auto.
  Qed.
  Lemma safe_rmult (A : csc K) D : wf A -> cn A <= zlen D -> safe (csc_rmult_diag A D) (same_pat A).
  Proof.
    intros W HD. destruct (csc_rmult_diag_spec A n0 D W HD) as (A' & -> & H1 & H2 & H3 & H4 & H5 & H6 & H7 & _).
    apply safe_ret. apply same_pat_intro; auto.
  Qed.
  Lemma safe_mscale (A : csc K) c : wf A -> safe (csc_scale A c) (same_pat A).
  Proof.
    intros W. destruct (csc_scale_spec A n0 c W) as (A' & -> & H1 & H2 & H3 & H4 & H5 & H6 & H7 & _).
    apply safe_ret. apply same_pat_intro; auto.
  Qed.
  Lemma safe_col_norm (A : csc K) E : wf A -> cn A <= zlen E -> safe (csc_col_norm_inf A E) (fun r => zlen r = zlen E).
  Proof. intros. apply csc_col_norm_inf_safe; auto. Qed.
  Lemma safe_row_norm (A : csc K) E : wf A -> cm A <= zlen E -> safe (csc_row_norm_inf A E) (fun r => zlen r = zlen E).
  Proof. intros. apply csc_row_norm_inf_safe; auto. Qed.
End Pat.

Section Inv.
  Context {K : NumOps}.

  (** Sizes of the vectors of the workspace. *)
  Record lens (n m : Z) (sc : bool) (w : work K) : Prop := {
    ln_x : zlen (w_x w) = n; ln_y : zlen (w_y w) = m; ln_z : zlen (w_z w) = m;
    ln_xz : zlen (w_xz_tilde w) = n + m;
    ln_xp : zlen (w_x_prev w) = n; ln_zp : zlen (w_z_prev w) = m;
    ln_Ax : zlen (w_Ax w) = m; ln_Px : zlen (w_Px w) = n; ln_Aty : zlen (w_Aty w) = n;
    ln_dy : zlen (w_delta_y w) = m; ln_Atdy : zlen (w_Atdelta_y w) = n;
    ln_dx : zlen (w_delta_x w) = n; ln_Pdx : zlen (w_Pdelta_x w) = n; ln_Adx : zlen (w_Adelta_x w) = m;
    ln_D : sc = true -> zlen (w_D_temp w) = n; ln_DA : sc = true -> zlen (w_D_temp_A w) = n;
    ln_E : sc = true -> zlen (w_E_temp w) = m;
    ln_fl : zlen (p_active_flags (w_pol w)) = m;
    ln_px : zlen (p_x (w_pol w)) = n; ln_pz : zlen (p_z (w_pol w)) = m; ln_py : zlen (p_y (w_pol w)) = m }.

  (** The problem data. *)
  Record dok (d : data K) : Prop := {
    do_n : 0 < d_n d; do_m : 0 <= d_m d;
    do_P : wf (d_P d); do_Pt : triu (d_P d); do_Pn : cn (d_P d) = d_n d;
    do_A : wf (d_A d); do_Am : cm (d_A d) = d_m d; do_An : cn (d_A d) = d_n d;
    do_q : zlen (d_q d) = d_n d; do_l : zlen (d_l d) = d_m d; do_u : zlen (d_u d) = d_m d }.

  Record scok (n m : Z) (sc : scaling K) : Prop := {
    so_D : zlen (sc_D sc) = n; so_Di : zlen (sc_Dinv sc) = n;
    so_E : zlen (sc_E sc) = m; so_Ei : zlen (sc_Einv sc) = m }.

  (** rho for a constraint type (osqp_api.c:1440-1446, auxil.c:97-101) *)
  Definition rho_of (rho : K) (t : Z) : K :=
    if t =? 0 then rho else if 0 <? t then nmul (OSQP_RHO_EQ_OVER_RHO_INEQ K) rho else OSQP_RHO_MIN K.

  (** rho_vec, rho_inv_vec and constr_type. *)
  Definition rho_ok (st : settings K) (m : Z) (w : work K) : Prop :=
    if tr (st_rho_is_vec st) then
      exists ct, w_constr_type w = Some ct /\ zlen ct = m /\
        w_rho_vec w = Some (map (rho_of (st_rho st)) ct) /\
        w_rho_inv_vec w = Some (map (fun t => ndiv n1 (rho_of (st_rho st) t)) ct)
    else w_rho_vec w = None.

  (** The linear system solver uses the rho of the workspace. *)
  Definition ls_rho (st : settings K) (w : work K) (ls : linsys K) : Prop :=
    if tr (st_rho_is_vec st) then
      exists ct, w_constr_type w = Some ct /\
        ls_rho_inv_vec ls = Some (map (fun t => ndiv n1 (rho_of (st_rho st) t)) ct)
    else ls_rho_inv_vec ls = None /\ ls_rho_inv ls = ndiv n1 (st_rho st).

  Definition negd (r : K) (v : K) : Prop := r = nsub n0 v \/ r = nopp v.

  Definition ls_sync (st : settings K) (w : work K) : Prop :=
    exists ls r, w_linsys w = Some ls /\ ls_ok ls (d_P (w_data w)) (d_A (w_data w)) (st_sigma st) r /\
      (forall j, 0 <= j < d_m (w_data w) -> negd (r j) (rinv ls j)) /\ ls_rho st w ls.

  Definition sc_ok (st : settings K) (w : work K) : Prop :=
    tr (st_scaling st) = true -> exists sc, w_scaling w = Some sc /\ scok (d_n (w_data w)) (d_m (w_data w)) sc.

  (** Everything about the workspace. *)
  Record wok (st : settings K) (w : work K) : Prop := {
    wo_d : dok (w_data w);
    wo_sc : sc_ok st w;
    wo_rho : rho_ok st (d_m (w_data w)) w;
    wo_ls : ls_sync st w;
    wo_len : lens (d_n (w_data w)) (d_m (w_data w)) (tr (st_scaling st)) w }.

  (** The part of the workspace that the iterations do not touch. *)
  Definition core (w : work K) :=
    (w_data w, w_linsys w, (w_rho_vec w, w_rho_inv_vec w, w_constr_type w), w_scaling w, w_rho_inv w).

  Lemma core_eq (w w' : work K) : core w' = core w ->
    w_data w' = w_data w /\ w_linsys w' = w_linsys w /\ w_rho_vec w' = w_rho_vec w /\
    w_rho_inv_vec w' = w_rho_inv_vec w /\ w_constr_type w' = w_constr_type w /\ w_scaling w' = w_scaling w /\ w_rho_inv w' = w_rho_inv w.
  Proof. unfold core. intros H. inversion H. auto 10. Qed.

  Lemma wok_core st w w' : wok st w -> core w' = core w ->
    lens (d_n (w_data w)) (d_m (w_data w)) (tr (st_scaling st)) w' -> wok st w'.
  Proof.
    intros [Hd Hs Hr Hl HL] HC HL'. apply core_eq in HC as (E1 & E2 & E3 & E4 & E5 & E6 & E7).
    constructor; rewrite ?E1; auto.
    - unfold sc_ok in *. rewrite E1, E6. auto.
    - unfold rho_ok in *. rewrite E3, E4, E5. auto.
    - unfold ls_sync, ls_rho in *. rewrite E1, E2, E5. auto.
  Qed.
End Inv.
