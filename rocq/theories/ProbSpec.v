(** Quadratic programs and changes of units, stated without reference to the solver. *)
From Coq Require Import ZArith Reals List Bool Lia Lra.
From Verif Require Import Num Arr ArrFacts RSum Csc CscSpec CscFacts CscFacts2 Types Inv.
Open Scope Z_scope.

(** M' is M with entry (i, j) multiplied by a * L i * C j (same storage). *)
Definition mscaled (a : R) (L C : Z -> R) (M M' : csc Rops) : Prop :=
  same_pat M M' /\
  (forall j k, 0 <= j < cn M -> colp M j <= k < colp M (j + 1) -> valx M' k = (a * L (rowi M k) * valx M k * C j)%R) /\
  (forall k, ~ 0 <= k < nnz M -> valx M' k = valx M k).

(** s is the problem u in the units  x = D xs,  y = E ys / c,  z = zs / E,  cost multiplied by c. *)
Record scaled_by (c : R) (D E : Z -> R) (u s : data Rops) : Prop := {
  sb_n : d_n s = d_n u; sb_m : d_m s = d_m u;
  sb_P : mscaled c D D (d_P u) (d_P s);
  sb_A : mscaled 1 E D (d_A u) (d_A s);
  sb_q : zlen (d_q s) = zlen (d_q u) /\ forall i, 0 <= i < d_n u -> rnth (d_q s) i = (c * D i * rnth (d_q u) i)%R;
  sb_l : zlen (d_l s) = zlen (d_l u) /\ forall i, 0 <= i < d_m u -> rnth (d_l s) i = (E i * rnth (d_l u) i)%R;
  sb_u : zlen (d_u s) = zlen (d_u u) /\ forall i, 0 <= i < d_m u -> rnth (d_u s) i = (E i * rnth (d_u u) i)%R }.

Lemma same_pat_valx (M M' : csc Rops) : same_pat M M' -> (forall k, 0 <= k < zlen (cx M) -> valx M' k = valx M k) -> M' = M.
Proof.
  intros [HE HL] HV. rewrite HE. replace (cx M') with (cx M); [destruct M; reflexivity|].
  symmetry. apply (list_ext_znth 0%R); auto. intros i Hi. apply HV. change (car Rops) with R in *; lia.
Qed.

Lemma same_pat_geom (M M' : csc Rops) : same_pat M M' -> cn M' = cn M /\ cm M' = cm M /\ nnz M' = nnz M /\
  (forall j, colp M' j = colp M j) /\ (forall k, rowi M' k = rowi M k).
Proof. intros [-> _]. repeat split. Qed.

Lemma mscaled_dns a L C M M' : wf M -> mscaled a L C M M' -> forall i j, 0 <= j < cn M -> dns M' i j = (a * L i * dns M i j * C j)%R.
Proof.
  intros W (HP & HV & _) i j Hj. destruct (same_pat_geom _ _ HP) as (_ & _ & _ & HC & HR).
  unfold dns. rewrite !HC.
  transitivity (zsum (colp M j) (colp M (j + 1)) (fun k => (a * L i * C j) * (if rowi M k =? i then valx M k else 0))%R).
  - apply zsum_ext. intros k Hk. rewrite HR. destruct (Z.eqb_spec (rowi M k) i) as [<-|]; [|lra]. rewrite (HV j k) by auto. ring.
  - rewrite zsum_scal. ring.
Qed.

Lemma mscaled_sdns a D M M' : wf M -> triu M -> mscaled a D D M M' -> forall i j, 0 <= i < cn M -> 0 <= j < cn M ->
  sdns M' i j = (a * D i * sdns M i j * D j)%R.
Proof. intros W T HS i j Hi Hj. unfold sdns. destruct (i <=? j); rewrite (mscaled_dns a D D M M') by auto; ring. Qed.

Lemma mscaled_refl M : mscaled 1 (fun _ => 1%R) (fun _ => 1%R) M M.
Proof. split; [apply same_pat_refl|]. split; auto. intros; ring. Qed.

Lemma mscaled_trans a L C a' L' C' M M' M'' : mscaled a L C M M' -> mscaled a' L' C' M' M'' ->
  mscaled (a * a') (fun i => L i * L' i)%R (fun j => C j * C' j)%R M M''.
Proof.
  intros (P1 & V1 & U1) (P2 & V2 & U2). destruct (same_pat_geom _ _ P1) as (En & _ & Ez & HC & HR).
  split; [eapply same_pat_trans; eauto|]. split.
  - intros j k Hj Hk. rewrite (V2 j k); [|lia|rewrite !HC; lia]. rewrite HR, (V1 j k) by auto. ring.
  - intros k Hk. rewrite U2 by (rewrite Ez; lia). auto.
Qed.

(** Only the values of L and C on the rows and columns of M matter. *)
Lemma mscaled_ext a L C L' C' M M' : wf M -> (forall i, 0 <= i < cm M -> L i = L' i) -> (forall j, 0 <= j < cn M -> C j = C' j) ->
  mscaled a L C M M' -> mscaled a L' C' M M'.
Proof.
  intros W HL HC (P1 & V1 & U1). split; auto. split; auto. intros j k Hj Hk. rewrite (V1 j k) by auto.
  pose proof (slot_range M j k W Hj Hk). rewrite HL by (apply (wf_rows _ W); auto). rewrite HC by auto. auto.
Qed.

Lemma mscaled_id a L C M M' : wf M -> (forall j k, 0 <= j < cn M -> colp M j <= k < colp M (j + 1) -> (a * L (rowi M k) * C j = 1)%R) ->
  mscaled a L C M M' -> M' = M.
Proof.
  intros W H1 (P1 & V1 & U1). apply same_pat_valx; auto. intros k Hk.
  destruct (Z_lt_dec k (nnz M)) as [Hn|Hn]; [|apply U1; lia].
  destruct (slot_col M k W) as (j & Hj & Hjk); [lia|]. rewrite (V1 j k) by auto. specialize (H1 j k Hj Hjk).
  transitivity (a * L (rowi M k) * C j * valx M k)%R; [ring|]. rewrite H1. ring.
Qed.

(** Undoing a change of units gives the original storage back. *)
Lemma mscaled_inv a L C ai Li Ci M M' M'' : wf M -> (a * ai = 1)%R -> (forall i, 0 <= i < cm M -> (L i * Li i = 1)%R) ->
  (forall j, 0 <= j < cn M -> (C j * Ci j = 1)%R) -> mscaled a L C M M' -> mscaled ai Li Ci M' M'' -> M'' = M.
Proof.
  intros W Ha HL HC H1 H2. eapply mscaled_id; [auto| |eapply mscaled_trans; eauto].
  intros j k Hj Hk. pose proof (slot_range M j k W Hj Hk) as Hs. pose proof (wf_rows _ W k Hs) as Hr.
  specialize (HL _ Hr). specialize (HC j Hj). cbv beta.
  transitivity ((a * ai) * (L (rowi M k) * Li (rowi M k)) * (C j * Ci j))%R; [ring|]. rewrite Ha, HL, HC. ring.
Qed.
