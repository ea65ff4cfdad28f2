(* A square real linear system that has only the zero solution for a zero right
   hand side has a solution for every right hand side (Gaussian elimination). *)
From Coq Require Import Lia.
From Verif Require Import Base Sums.
Open Scope R_scope.
Open Scope list_scope.

Definition lmv (n : nat) (A : nat -> nat -> R) (u : nat -> R) (i : nat) : R :=
  rsum (map (fun j => A i j * u j) (seq 0 n)).
Definition injective_mat (n : nat) (A : nat -> nat -> R) : Prop :=
  forall u, (forall i, (i < n)%nat -> lmv n A u i = 0) -> forall i, (i < n)%nat -> u i = 0.

Lemma lmv_last n A u i : lmv (S n) A u i = lmv n A u i + A i n * u n.
Proof.
  unfold lmv. rewrite seq_S, map_app, rsum_app. cbn. ring.
Qed.
Lemma lmv_ext n A B u v i : (forall j, (j < n)%nat -> A i j * u j = B i j * v j) -> lmv n A u i = lmv n B v i.
Proof. intros H. unfold lmv. apply rs_ext. intros j Hj. apply in_seq in Hj. apply H. lia. Qed.

(* the solution by elimination of the last unknown; pivots are searched from row 0 *)
Definition pivot_row (m : nat) (A : nat -> nat -> R) (col : nat) : nat :=
  match List.find (fun k => negb (Reqb (A k col) 0)) (seq 0 m) with Some k => k | None => 0%nat end.
Fixpoint gauss (n : nat) (A : nat -> nat -> R) (b : nat -> R) : nat -> R :=
  match n with
  | 0%nat => fun _ => 0
  | S m =>
    let k := pivot_row (S m) A m in
    let row := fun i => if Nat.eqb i k then m else i in
    let u := gauss m (fun i j => A (row i) j - A (row i) m / A k m * A k j) (fun i => b (row i) - A (row i) m / A k m * b k) in
    fun j => if Nat.eqb j m then (b k - lmv m A u k) / A k m else u j
  end.
Lemma gauss_solves n : forall A, injective_mat n A -> forall b i, (i < n)%nat -> lmv n A (gauss n A b) i = b i.
Proof.
  induction n as [|n IH]; intros A Hinj b; [intros; lia|].
  assert (Hp : (pivot_row (S n) A n < S n)%nat /\ A (pivot_row (S n) A n) n <> 0).
  { unfold pivot_row. destruct (List.find _ _) as [k|] eqn:Ef.
    - apply List.find_some in Ef. destruct Ef as (Hk & Hne). apply in_seq in Hk. split; [lia|].
      apply Bool.negb_true_iff in Hne. now apply Reqb_false in Hne.
    - exfalso. assert (Hz : forall k, (k < S n)%nat -> A k n = 0).
      { intros k Hk. pose proof (List.find_none _ _ Ef k ltac:(apply in_seq; lia)) as Q. cbv beta in Q. apply Bool.negb_false_iff in Q. now apply Reqb_true in Q. }
      assert (E : (fun j => if Nat.eqb j n then 1 else 0) n = 0); [|cbv beta in E; rewrite Nat.eqb_refl in E; lra].
      apply (Hinj (fun j => if Nat.eqb j n then 1 else 0)); [|lia]. intros i Hi. unfold lmv. apply rs_zero. intros j Hj. apply in_seq in Hj.
      destruct (Nat.eqb_spec j n) as [->|]; [rewrite Hz by exact Hi; ring|ring]. }
  cbn [gauss]. set (k := pivot_row (S n) A n) in *. destruct Hp as (Hk & Hne). set (row := fun i => if Nat.eqb i k then n else i).
  set (B := fun i j => A (row i) j - A (row i) n / A k n * A k j).
  assert (Lift : forall u c, (forall i, (i < n)%nat -> lmv n B u i = c (row i) - A (row i) n / A k n * c k) ->
     let v := fun j => if Nat.eqb j n then (c k - lmv n A u k) / A k n else u j in
     forall i, (i < S n)%nat -> lmv (S n) A v i = c i).
  { intros u c Hu v. assert (V : forall i, lmv n A v i = lmv n A u i).
    { intros i. apply lmv_ext. intros j Hj. unfold v. destruct (Nat.eqb_spec j n); [lia|reflexivity]. }
    assert (Vn : v n = (c k - lmv n A u k) / A k n) by (unfold v; now rewrite Nat.eqb_refl).
    assert (Hrow : forall i, (i < n)%nat -> lmv (S n) A v (row i) = c (row i)).
    { intros i Hi. rewrite lmv_last, V, Vn. specialize (Hu i Hi).
      assert (E : lmv n B u i = lmv n A u (row i) - A (row i) n / A k n * lmv n A u k).
      { unfold lmv, B. rewrite <- rs_scal, <- rs_minus. apply rs_ext. intros; ring. }
      rewrite E in Hu. replace (lmv n A u (row i)) with (c (row i) - A (row i) n / A k n * c k + A (row i) n / A k n * lmv n A u k) by lra.
      field. exact Hne. }
    intros i Hi. destruct (Nat.eq_dec i k) as [->|Hik].
    - rewrite lmv_last, V, Vn. field. exact Hne.
    - destruct (Nat.eq_dec i n) as [->|Hin].
      + specialize (Hrow k ltac:(lia)). unfold row in Hrow. now rewrite Nat.eqb_refl in Hrow.
      + specialize (Hrow i ltac:(lia)). unfold row in Hrow. destruct (Nat.eqb_spec i k); [contradiction|exact Hrow]. }
  assert (HB : injective_mat n B).
  { intros u Hu i Hi. pose proof (Lift u (fun _ => 0)) as L. cbv zeta in L.
    specialize (L ltac:(intros j Hj; rewrite Hu by exact Hj; ring)). pose proof (Hinj _ L i ltac:(lia)) as E. cbv beta in E.
    destruct (Nat.eqb_spec i n); [lia|exact E]. }
  apply Lift. intros i Hi. exact (IH B HB (fun i => b (row i) - A (row i) n / A k n * b k) i Hi).
Qed.
Lemma injective_surjective n A : injective_mat n A -> forall b, exists u, forall i, (i < n)%nat -> lmv n A u i = b i.
Proof. intros Hinj b. exists (gauss n A b). now apply gauss_solves. Qed.
Print Assumptions injective_surjective.
