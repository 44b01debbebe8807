(** An executable environment for the examples: natural order, textbook dense LDL' elimination, a given
    clock and interrupt schedule.  It is not a model of any file; it shows that the assumptions of the
    theorems about the outside world can be met, and lets the model run. *)
From Coq Require Import ZArith List Bool Lia.
From Verif Require Import Num Arr ArrFacts Csc CscSpec Vec VecFacts Types Kkt Linsys LinsysFacts.
Import ListNotations.
Open Scope Z_scope.

Lemma zlen_zseq lo hi : lo <= hi -> zlen (zseq lo hi) = hi - lo.
Proof. intros. unfold zlen. rewrite length_zseq. lia. Qed.
Lemma znth_zseq lo hi i : 0 <= i < hi - lo -> znth 0 (zseq lo hi) i = lo + i.
Proof.
  intros Hi. rewrite (zseq_split lo hi (lo + i)) by lia. rewrite znth_app by lia. rewrite zlen_zseq by lia.
  replace (i <? lo + i - lo) with false by lia. replace (i - (lo + i - lo)) with 0 by lia. reflexivity.
Qed.

Section ExEnv.
  Context {K : NumOps}.
  Local Open Scope num_scope.

  (** Entry (i,j) of the symmetric matrix whose upper triangle is M. *)
  Definition sym_entry (M : csc K) (i j : Z) : K :=
    fold_left (fun acc k => if (rowi M k =? Z.min i j)%Z then acc + znth n0 (cx M) k else acc)
      (zseq (colp M (Z.max i j)) (colp M (Z.max i j + 1))) n0.
  Definition dense (M : csc K) : list (list K) :=
    map (fun i => map (fun j => sym_entry M i j) (zseq 0 (cn M))) (zseq 0 (cn M)).

  Definition zipl {A B C} (f : A -> B -> C) (a : list A) (b : list B) : list C := map (fun p => f (fst p) (snd p)) (combine a b).

  (** Schur complement after eliminating the first variable with pivot d and off-diagonal row c. *)
  Definition schur (d : K) (c : list K) (rest : list (list K)) : list (list K) :=
    zipl (fun row ci => zipl (fun x cj => x - ci / d * cj) (tl row) c) rest c.

  (** Pivots; a zero pivot stops with -1 (QDLDL_factor), otherwise the number of positive pivots. *)
  Fixpoint pivots (fuel : nat) (M : list (list K)) (pos : Z) : Z :=
    match fuel, M with
    | S f, (d :: c) :: rest => if d =? n0 then (-1)%Z else pivots f (schur d c rest) (if d >? n0 then (pos + 1)%Z else pos)
    | _, _ => pos
    end.

  Fixpoint ldlt (fuel : nat) (M : list (list K)) (b : list K) : list K :=
    match fuel, M, b with
    | S f, (d :: c) :: rest, b0 :: bs =>
        let xs := ldlt f (schur d c rest) (zipl (fun bi ci => bi - ci / d * b0) bs c) in
        (b0 / d - fold_left (fun a p => a + fst p / d * snd p) (combine c xs) n0) :: xs
    | _, _, _ => b
    end.

  Definition ex_solve (M : csc K) (b : list K) : list K :=
    let x := ldlt (length b) (dense M) b in
    if Nat.eqb (length x) (length b) then x else b.

  Definition exEnv (clock : nat -> K) (intr : nat -> bool) : Env K :=
    mkEnv K (fun n _ _ => Some (zseq 0 n)) (fun M => pivots (Z.to_nat (cn M)) (dense M) 0) ex_solve clock intr (-7) (nofZ (-7)).

  Lemma exEnv_ok clock intr : env_ok (exEnv clock intr).
  Proof.
    constructor.
    - intros n p i Hn. exists (zseq 0 n). split; [reflexivity|]. split; [rewrite zlen_zseq; lia|].
      split; [intros q [= <-]; rewrite zlen_zseq; lia|]. cbn [pm]. split.
      + intros k Hk. rewrite znth_zseq by lia. lia.
      + intros a b Ha Hb. rewrite !znth_zseq by lia. lia.
    - intros M b. cbn [env_ldlsolve exEnv]. unfold ex_solve. destruct (Nat.eqb _ _) eqn:E; [|reflexivity].
      apply Nat.eqb_eq in E. unfold zlen. rewrite E. reflexivity.
  Qed.
End ExEnv.
