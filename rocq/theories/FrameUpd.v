(** What the update functions change and what they leave unchanged, for every number system. *)
From Coq Require Import ZArith List Bool Lia String.
From Verif Require Import Num Arr ArrFacts Csc Vec Types Linsys Scaling Validate Auxil Polish Api Inv InvApi RecSimp Frame FrameSolve.
Import ListNotations.
Open Scope Z_scope.

Section FrameUpd.
  Context {K : NumOps}.
  Variable E : Env K.

  (** The constraint types are those of the stored bounds. *)
  Definition ctsync (s : solver K) : Prop := tr (st_rho_is_vec (sv_settings s)) = true ->
    let d := w_data (sv_work s) in
    exists ct0 ct ch, vf_ew_bounds_type ct0 (d_l d) (d_u d) (OSQP_RHO_TOL K) infval = Some (ct, ch) /\ w_constr_type (sv_work s) = Some ct.

  (** Everything but the rho vectors and the factorisation. *)
  Definition ufix (w : work K) := (w_data w, w_scaling w, w_rho_inv w, iter3 w, deltas w, prods w, (w_x_prev w, w_z_prev w), w_pol w,
    (w_first_run w, w_clear_update_time w, w_rho_update_from_solve w, w_last_rel_kkt w, w_rho_updated w, w_summary_printed w)).

  Lemma refresh_post rho (w : work K) : post (refresh_rho_vec rho w) (fun w' => exists a b, w' = set_w_rho_vec a (set_w_rho_inv_vec b w)).
  Proof. unfold refresh_rho_vec. walk. eauto. Qed.

  Lemma update_rho_vec_post (s : solver K) : post (update_rho_vec E s) (fun r => let s' := snd r in
    ufix (sv_work s') = ufix (sv_work s) /\ sv_settings s' = set_st_rho (clamp (st_rho (sv_settings s))) (sv_settings s) /\
    sv_solution s' = sv_solution s /\ sv_info s' = sv_info s /\ sv_world s' = sv_world s /\ ctsync s').
  Proof.
    unfold update_rho_vec, set_rho_vec. fold (clamp (st_rho (sv_settings s))).
    eapply post_bindP with (P := fun r => let s' := snd r in
      ufix (sv_work s') = ufix (sv_work s) /\ sv_settings s' = set_st_rho (clamp (st_rho (sv_settings s))) (sv_settings s) /\
      sv_solution s' = sv_solution s /\ sv_info s' = sv_info s /\ sv_world s' = sv_world s /\ ctsync s').
    - cbv zeta. rs. apply post_bind. intros ct Ect. apply post_bind. intros [ct' ch] Hbt. cbn [fst snd].
      eapply post_bindP; [apply refresh_post|]. intros w (a & b & ->). apply post_ret. cbn [snd]. rs.
      repeat match goal with |- _ /\ _ => split; [reflexivity|] end. unfold ctsync. rs. intros _. exists ct, ct', ch. auto.
    - intros [ch s1] (A1 & A2 & A3 & A4 & A5 & A6). cbn [snd] in *. destruct ch; [|apply post_ret; cbn [snd]; auto 10].
      do 2 (apply post_bind; intros ? ?). apply post_ret. cbn [snd]. rs.
      repeat match goal with |- _ /\ _ => split; [solve [auto]|] end. exact A6.
  Qed.

  Lemma begin_update_eq (s : solver K) : exists t c, begin_update s = set_sv_info (set_i_update_time t (sv_info s)) (set_sv_work (set_w_clear_update_time c (sv_work s)) s).
  Proof.
    unfold begin_update. destruct (_ =? 1).
    - exists n0, 0. reflexivity.
    - exists (i_update_time (sv_info s)), (w_clear_update_time (sv_work s)). destruct s as [? ? [] [] ?]; reflexivity.
  Qed.
  Lemma reset_info_eq (i : info K) : exists m, reset_info i = Some (set_i_rho_updates 0 (set_i_status m (set_i_status_val OSQP_UNSOLVED (set_i_polish_time n0 (set_i_solve_time n0 i))))).
  Proof. eexists. reflexivity. Qed.
  Lemma end_update_eq (s : solver K) : exists m t g, end_update E s =
    Some (set_sv_info (set_i_update_time t (set_i_rho_updates 0 (set_i_status m (set_i_status_val OSQP_UNSOLVED (set_i_polish_time n0 (set_i_solve_time n0 (sv_info s)))))))
      (set_sv_world g s)).
  Proof.
    unfold end_update. destruct (reset_info_eq (sv_info s)) as (m & ->). unfold toc. rs. exists m. eexists. eexists. destruct s; reflexivity.
  Qed.

  Definition given {A} (o : option A) : bool := match o with Some _ => true | None => false end.
  (** A new vector if there is one. *)
  Definition pick {A} (o : option A) (new old : list K) : list K := match o with Some _ => new | None => old end.

  (** osqp_update_data_vec, case by case. *)
  Record vec_shape (s : solver K) q l u (r : Z * solver K) (lt ut : list K) (okb : bool) : Prop := {
    vs_l : load_bound s (w_z_prev (sv_work s)) l = Some lt;
    vs_u : load_bound s (w_delta_y (sv_work s)) u = Some ut;
    vs_ok : vf_all_leq (pick l lt (d_l (w_data (sv_work s)))) (pick u ut (d_u (w_data (sv_work s)))) = Some okb \/ l = None /\ u = None /\ okb = true;
    vs_rej : okb = false -> fst r = OSQP_DATA_VALIDATION_ERROR /\ exists t c,
      snd r = set_sv_info (set_i_update_time t (sv_info s)) (set_sv_work (set_w_z_prev lt (set_w_delta_y ut (set_w_clear_update_time c (sv_work s)))) s);
    vs_acc : okb = true -> let s' := snd r in let w := sv_work s in let w' := sv_work s' in
      exists q', (match q with None => q' = d_q (w_data w)
        | Some a => exists q1, vf_from_raw (d_q (w_data w)) a = Some q1 /\
            (if tr (st_scaling (sv_settings s)) then exists sc q2, w_scaling w = Some sc /\ vf_ew_prod q1 q1 (sc_D sc) = Some q2 /\ q' = vf_mult_scalar q2 (sc_c sc)
             else q' = q1) end) /\
      w_data w' = set_d_q q' (set_d_l (pick l lt (d_l (w_data w))) (set_d_u (pick u ut (d_u (w_data w))) (w_data w))) /\
      w_scaling w' = w_scaling w /\ w_rho_inv w' = w_rho_inv w /\ iter3 w' = iter3 w /\
      w_rho_update_from_solve w' = w_rho_update_from_solve w /\ w_first_run w' = w_first_run w /\
      sv_settings s' = (if (given l || given u) && tr (st_rho_is_vec (sv_settings s)) then set_st_rho (clamp (st_rho (sv_settings s))) (sv_settings s) else sv_settings s) /\
      sv_solution s' = sv_solution s /\ i_status_val (sv_info s') = OSQP_UNSOLVED /\
      (given l || given u = true -> ctsync s') /\ (given l || given u = false -> w_constr_type w' = w_constr_type w) }.

  Lemma update_data_vec_shape (s : solver K) q l u : post (update_data_vec E s q l u) (fun r => exists lt ut okb, vec_shape s q l u r lt ut okb).
  Proof.
    unfold update_data_vec. destruct (begin_update_eq s) as (t0 & c0 & E0). rewrite E0. clear E0. set (s0 := set_sv_info _ _).
    assert (LB : forall tmp a, load_bound s0 tmp a = load_bound s tmp a) by reflexivity.
    eapply post_bindP with (P := fun r => exists lt ut okb, load_bound s (w_z_prev (sv_work s)) l = Some lt /\
      load_bound s (w_delta_y (sv_work s)) u = Some ut /\
      (vf_all_leq (pick l lt (d_l (w_data (sv_work s)))) (pick u ut (d_u (w_data (sv_work s)))) = Some okb \/ l = None /\ u = None /\ okb = true) /\
      snd r = negb okb /\
      (okb = false -> fst (fst r) = OSQP_DATA_VALIDATION_ERROR /\ snd (fst r) = set_sv_work (set_w_z_prev lt (set_w_delta_y ut (sv_work s0))) s0) /\
      (okb = true -> let s' := snd (fst r) in let w := sv_work s in let w' := sv_work s' in
        w_data w' = set_d_l (pick l lt (d_l (w_data w))) (set_d_u (pick u ut (d_u (w_data w))) (w_data w)) /\
        w_scaling w' = w_scaling w /\ w_rho_inv w' = w_rho_inv w /\ iter3 w' = iter3 w /\
        w_rho_update_from_solve w' = w_rho_update_from_solve w /\ w_first_run w' = w_first_run w /\
        sv_settings s' = (if (given l || given u) && tr (st_rho_is_vec (sv_settings s)) then set_st_rho (clamp (st_rho (sv_settings s))) (sv_settings s) else sv_settings s) /\
        sv_solution s' = sv_solution s /\
        (given l || given u = true -> ctsync s') /\ (given l || given u = false -> w_constr_type w' = w_constr_type w))).
    - assert (HH : l = None /\ u = None \/ given l || given u = true) by (destruct l, u; auto).
      destruct HH as [(-> & ->)|HH].
      { apply post_ret. exists (w_z_prev (sv_work s)), (w_delta_y (sv_work s)), true. cbn [fst snd negb given orb andb pick load_bound].
        repeat match goal with |- _ /\ _ => split; [solve [auto]|] end. split; [discriminate|]. intros _. cbv zeta. subst s0. rs.
        split; [destruct s as [? ? ? [[]] ?]; reflexivity|]. repeat match goal with |- _ /\ _ => split; [solve [auto]|] end. split; [discriminate|auto]. }
      assert (Hbody : forall chk, (chk = fun lt ut (d : data K) => vf_all_leq (pick l lt (d_l d)) (pick u ut (d_u d))) ->
        post (match load_bound s0 (w_z_prev (sv_work s0)) l with Some l_tmp =>
             match load_bound s0 (w_delta_y (sv_work s0)) u with Some u_tmp =>
             let w := set_w_z_prev l_tmp (set_w_delta_y u_tmp (sv_work s0)) in
             let d := w_data w in
             match chk l_tmp u_tmp d with Some ok =>
             if negb ok then Some (OSQP_DATA_VALIDATION_ERROR, set_sv_work w s0, true) else
             let w := match l with
                      | Some _ => set_w_z_prev (d_l (w_data w)) (set_w_data (set_d_l (w_z_prev w) (w_data w)) w)
                      | None => w
                      end in
             let w := match u with
                      | Some _ => set_w_delta_y (d_u (w_data w)) (set_w_data (set_d_u (w_delta_y w) (w_data w)) w)
                      | None => w
                      end in
             let s := set_sv_work w s0 in
             if tr (st_rho_is_vec (sv_settings s)) then match update_rho_vec E s with Some r => Some (r, false) | None => None end
             else Some (0%Z, s, false) | None => None end | None => None end | None => None end)
        (fun r => exists lt ut okb, load_bound s (w_z_prev (sv_work s)) l = Some lt /\
      load_bound s (w_delta_y (sv_work s)) u = Some ut /\
      (vf_all_leq (pick l lt (d_l (w_data (sv_work s)))) (pick u ut (d_u (w_data (sv_work s)))) = Some okb \/ l = None /\ u = None /\ okb = true) /\
      snd r = negb okb /\
      (okb = false -> fst (fst r) = OSQP_DATA_VALIDATION_ERROR /\ snd (fst r) = set_sv_work (set_w_z_prev lt (set_w_delta_y ut (sv_work s0))) s0) /\
      (okb = true -> let s' := snd (fst r) in let w := sv_work s in let w' := sv_work s' in
        w_data w' = set_d_l (pick l lt (d_l (w_data w))) (set_d_u (pick u ut (d_u (w_data w))) (w_data w)) /\
        w_scaling w' = w_scaling w /\ w_rho_inv w' = w_rho_inv w /\ iter3 w' = iter3 w /\
        w_rho_update_from_solve w' = w_rho_update_from_solve w /\ w_first_run w' = w_first_run w /\
        sv_settings s' = (if (given l || given u) && tr (st_rho_is_vec (sv_settings s)) then set_st_rho (clamp (st_rho (sv_settings s))) (sv_settings s) else sv_settings s) /\
        sv_solution s' = sv_solution s /\
        (given l || given u = true -> ctsync s') /\ (given l || given u = false -> w_constr_type w' = w_constr_type w)))).
      { intros chk Ec. apply post_bind. intros lt Hl. apply post_bind. intros ut Hu. cbv zeta. apply post_bind. intros okb Hok.
        rewrite LB in Hl, Hu. subst s0 chk. rs_all. destruct okb; cbn [negb].
        2:{ apply post_ret. exists lt, ut, false. cbn [fst snd negb]. repeat match goal with |- _ /\ _ => split; [solve [auto]|] end. discriminate. }
        set (w2 := match u with Some _ => _ | None => _ end).
        assert (H2 : w_data w2 = set_d_l (pick l lt (d_l (w_data (sv_work s)))) (set_d_u (pick u ut (d_u (w_data (sv_work s)))) (w_data (sv_work s))) /\
          w_scaling w2 = w_scaling (sv_work s) /\ w_rho_inv w2 = w_rho_inv (sv_work s) /\ iter3 w2 = iter3 (sv_work s) /\
          w_rho_update_from_solve w2 = w_rho_update_from_solve (sv_work s) /\ w_first_run w2 = w_first_run (sv_work s) /\ w_constr_type w2 = w_constr_type (sv_work s)).
        { subst w2. destruct l, u; cbn [pick]; rs; (split; [destruct s as [? ? ? [[]] ?]; reflexivity|]); repeat split. }
        clearbody w2. destruct H2 as (A1 & A2 & A3 & A4 & A5 & A6 & A7). destruct (tr (st_rho_is_vec (sv_settings s))) eqn:Ev.
        - eapply post_bindP; [apply update_rho_vec_post|]. intros [fl s2] (B1 & B2 & B3 & B4 & B5 & B6). cbn [snd] in *. rs_all. apply post_ret. cbn [fst snd].
          unfold ufix in B1. inversion B1. exists lt, ut, true. cbn [negb].
          repeat match goal with |- _ /\ _ => split; [solve [auto]|] end. split; [discriminate|]. intros _. rewrite HH. cbn [andb].
          unfold iter3, deltas, prods in *. cbv zeta. repeat match goal with H : (_, _) = (_, _) |- _ => inversion H; clear H end.
          split; [congruence|]. split; [congruence|]. split; [congruence|]. split; [congruence|].
          repeat match goal with |- _ /\ _ => split; [solve [congruence]|] end. split; [auto|discriminate].
        - apply post_ret. exists lt, ut, true. cbn [fst snd negb]. rs. repeat match goal with |- _ /\ _ => split; [solve [auto]|] end. split; [discriminate|]. intros _.
          rewrite HH. cbn [andb]. repeat match goal with |- _ /\ _ => split; [solve [auto]|] end. split; [|discriminate]. intros _ X. rs_in X. congruence. }
      specialize (Hbody _ eq_refl).
      destruct l as [l|]; [|destruct u as [u|]; [|discriminate]]; [destruct u as [u|]|]; exact Hbody.
    - intros [[fl s1] failed] (lt & ut & okb & A1 & A2 & A3 & A4 & A5 & A6). cbn [fst snd] in *. subst failed. destruct okb; cbn [negb].
      2:{ apply post_ret. exists lt, ut, false. constructor; cbn [fst snd]; auto; [|discriminate]. intros _. destruct (A5 eq_refl) as [-> ->]. split; auto.
          exists t0, c0. subst s0. destruct s; reflexivity. }
      destruct (A6 eq_refl) as (B1 & B2 & B3 & B4 & B5 & B6 & B7 & B8 & B9 & B10). clear A5 A6.
      assert (Esc : tr (st_scaling (sv_settings s1)) = tr (st_scaling (sv_settings s))) by (rewrite B7; destruct (_ && _); reflexivity).
      eapply post_bindP with (P := fun s2 => exists q', (match q with None => q' = d_q (w_data (sv_work s))
        | Some a => exists q1, vf_from_raw (d_q (w_data (sv_work s))) a = Some q1 /\
            (if tr (st_scaling (sv_settings s)) then exists sc q2, w_scaling (sv_work s) = Some sc /\ vf_ew_prod q1 q1 (sc_D sc) = Some q2 /\ q' = vf_mult_scalar q2 (sc_c sc)
             else q' = q1) end) /\ s2 = set_sv_work (set_w_data (set_d_q q' (w_data (sv_work s1))) (sv_work s1)) s1).
      { destruct q as [a|].
        - apply post_bind. intros q1 Hq1. rewrite Esc. apply post_bind. intros q2 Hq2. apply post_ret. exists q2. split; [|auto].
          exists q1. rewrite B1 in Hq1. split; [exact Hq1|]. destruct (tr (st_scaling (sv_settings s))); [|congruence].
          rewrite B2 in Hq2. destruct (w_scaling (sv_work s)) as [sc|]; [|discriminate]. destruct (vf_ew_prod q1 q1 (sc_D sc)) as [q3|] eqn:E3; [|discriminate].
          injection Hq2 as <-. eauto.
        - apply post_ret. exists (d_q (w_data (sv_work s))). split; auto. replace (d_q (w_data (sv_work s))) with (d_q (w_data (sv_work s1))) by (rewrite B1; reflexivity).
          destruct s1 as [? ? ? [[]] ?]; reflexivity. }
      intros s2 (q' & Hq & ->). match goal with |- context [end_update E ?x] => destruct (end_update_eq x) as (m & tt & g & ->) end.
      apply post_ret. exists lt, ut, true. constructor; cbn [fst snd]; rs; auto; [discriminate|]. intros _. exists q'. split; [exact Hq|]. rs.
      split; [rewrite B1; reflexivity|]. repeat match goal with |- _ /\ _ => split; [solve [auto]|] end.
      exact B10.
  Qed.

  (** The counts osqp_update_data_mat refuses. *)
  Definition mat_bad (nz n : Z) (idx : option (list Z)) : bool :=
    (nz <? n) || (n <? 0) || (negb (given idx) && negb (n =? 0) && negb (n =? nz)).
  Definition upd_mat (M M' : csc K) (x : option (list K)) (idx : option (list Z)) (n : Z) : Prop :=
    match x with None => M' = M | Some v => exists nz, zget (cp M) (cn M) = Some nz /\ csc_update_values M v idx (if n =? 0 then nz else n) = Some M' end.

  Lemma update_data_mat_shape (s : solver K) Px Pidx Pn Ax Aidx An : post (update_data_mat E s Px Pidx Pn Ax Aidx An) (fun r =>
    exists nP nA, zget (cp (d_P (w_data (sv_work s)))) (cn (d_P (w_data (sv_work s)))) = Some nP /\
      zget (cp (d_A (w_data (sv_work s)))) (cn (d_A (w_data (sv_work s)))) = Some nA /\
      (((mat_bad nP Pn Pidx = true /\ fst r = 1 \/ mat_bad nP Pn Pidx = false /\ mat_bad nA An Aidx = true /\ fst r = 2) /\ snd r = begin_update s) \/
       (mat_bad nP Pn Pidx = false /\ mat_bad nA An Aidx = false /\
        exists t c w1 P2 A2 w4 ls ls' i g, let scaled := tr (st_scaling (sv_settings s)) in
         let w0 := set_w_clear_update_time c (sv_work s) in
         (if scaled then unscale_data w0 = Some w1 else w1 = w0) /\
         match Px with None => P2 = d_P (w_data w1) | Some v => csc_update_values (d_P (w_data w1)) v Pidx (if Pn =? 0 then nP else Pn) = Some P2 end /\
         match Ax with None => A2 = d_A (w_data w1) | Some v => csc_update_values (d_A (w_data w1)) v Aidx (if An =? 0 then nA else An) = Some A2 end /\
         (if scaled then scale_data (sv_settings s) (set_w_data (set_d_A A2 (set_d_P P2 (w_data w1))) w1) = Some w4
          else w4 = set_w_data (set_d_A A2 (set_d_P P2 (w_data w1))) w1) /\
         w_linsys w4 = Some ls /\
         (if scaled then update_linsys_matrices E ls (d_P (w_data w4)) None nP (d_A (w_data w4)) None nA
          else update_linsys_matrices E ls (d_P (w_data w4)) Pidx (if Pn =? 0 then nP else Pn) (d_A (w_data w4)) Aidx (if An =? 0 then nA else An)) = Some (fst r, ls') /\
         snd r = set_sv_info (set_i_status_val OSQP_UNSOLVED i) (set_sv_world g (set_sv_work (set_w_linsys (Some ls') w4) s)) /\
         i_iter i = i_iter (sv_info s) /\ i_setup_time i = i_setup_time (sv_info s) /\ i_update_time i = t))).
  Proof.
    unfold update_data_mat. destruct (begin_update_eq s) as (t0 & c0 & E0). rewrite E0. cbv zeta. rs.
    apply post_bind. intros nP HP. apply post_bind. intros nA HA.
    assert (GN : forall o : option (list Z), (match o with Some _ => false | None => true end) = negb (given o)) by (intros []; reflexivity).
    rewrite !GN.
    destruct ((nP <? Pn) || (Pn <? 0)) eqn:B1.
    { apply post_ret. exists nP, nA. split; auto. split; auto. left. split; auto. left. unfold mat_bad. rewrite B1. auto. }
    destruct (negb (given Pidx) && negb (Pn =? 0) && negb (Pn =? nP)) eqn:B2.
    { apply post_ret. exists nP, nA. split; auto. split; auto. left. split; auto. left. unfold mat_bad. rewrite B1, B2. auto. }
    assert (BP : mat_bad nP Pn Pidx = false) by (unfold mat_bad; rewrite B1, B2; auto).
    destruct ((nA <? An) || (An <? 0)) eqn:B3.
    { apply post_ret. exists nP, nA. split; auto. split; auto. left. split; auto. right. split; auto. unfold mat_bad. rewrite B3. auto. }
    destruct (negb (given Aidx) && negb (An =? 0) && negb (An =? nA)) eqn:B4.
    { apply post_ret. exists nP, nA. split; auto. split; auto. left. split; auto. right. split; auto. unfold mat_bad. rewrite B3, B4. auto. }
    assert (BA : mat_bad nA An Aidx = false) by (unfold mat_bad; rewrite B3, B4; auto).
    apply post_bind. intros w1 H1.
    eapply post_bindP with (P := fun w2 => exists P2, w2 = set_w_data (set_d_P P2 (w_data w1)) w1 /\
      match Px with None => P2 = d_P (w_data w1) | Some v => csc_update_values (d_P (w_data w1)) v Pidx (if Pn =? 0 then nP else Pn) = Some P2 end).
    { destruct Px; [apply post_bind; intros P2 HP2|]; apply post_ret; [exists P2; auto|]. exists (d_P (w_data w1)). split; [destruct w1 as [[]]; reflexivity|auto]. }
    intros w2 (P2 & -> & HP2).
    eapply post_bindP with (P := fun w3 => exists A2, w3 = set_w_data (set_d_A A2 (set_d_P P2 (w_data w1))) w1 /\
      match Ax with None => A2 = d_A (w_data w1) | Some v => csc_update_values (d_A (w_data w1)) v Aidx (if An =? 0 then nA else An) = Some A2 end).
    { destruct Ax; [apply post_bind; intros A2 HA2|]; apply post_ret; [exists A2; auto|]. exists (d_A (w_data w1)). split; [destruct w1 as [[]]; reflexivity|auto]. }
    intros w3 (A2 & -> & HA2). apply post_bind. intros w4 H4. apply post_bind. intros ls Hls. apply post_bind. intros [fl ls'] Hu. cbn [fst snd].
    match goal with |- context [end_update E ?x] => destruct (end_update_eq x) as (m & tt & g & ->) end. apply post_ret. cbn [fst snd]. rs.
    exists nP, nA. split; auto. split; auto. right. split; auto. split; auto.
    exists tt, c0, w1, P2, A2, w4, ls, ls'. do 2 eexists. split; [destruct (tr _); [exact H1|congruence]|]. split; [exact HP2|]. split; [exact HA2|].
    split; [destruct (tr _); [exact H4|congruence]|]. split; [exact Hls|]. split; [exact Hu|]. split.
    - instantiate (2 := set_i_update_time tt (set_i_rho_updates 0 (set_i_status m (set_i_status_val OSQP_UNSOLVED
        (set_i_polish_time n0 (set_i_solve_time n0 (set_i_update_time t0 (sv_info s)))))))). instantiate (1 := g). destruct s; reflexivity.
    - rs. auto.
  Qed.
End FrameUpd.
