(* C79: the element based Helmholtz filter. *)
From Coq Require Import Sorting.Sorted Permutation Lia.
From Verif Require Import Base Sums LinAlg Mesh_model Mesh_spec Filter_model Adj_model Adj_props EHelm_model.
Open Scope R_scope.
Open Scope list_scope.

(* ---------- specification ---------- *)
Definition sound (m : emesh) : Prop := (0 < nel m)%nat /\ forall i, (i < nel m)%nat -> 0 < volume m i.
(* volume weighted sum *)
Definition vsum (m : emesh) (f : nat -> R) : R := rsum (map (fun i => volume m i * f i) (seq 0 (nel m))).
Definition psum (m : emesh) (f : nat -> R) : R := rsum (map f (seq 0 (nel m))).
(* i and j exchange density *)
Definition coupled (m : emesh) (i j : nat) : Prop :=
  In j (adjacent m i) /\ / 1000000000000 <= dist (ecenter m i) (ecenter m j).

(* ---------- lemmas ---------- *)
Lemma adjacent_lt m i j : In j (adjacent m i) -> (i < nel m)%nat /\ (j < nel m)%nat.
Proof.
  unfold adjacent. intros H. apply adjacency_iff in H. destruct H as (f & H).
  split; [apply (proj1 (owners_in (match e_kind m with Tet => tet_faces | Hex => hex_faces end) (e_t m) f i))
         |apply (proj1 (owners_in (match e_kind m with Tet => tet_faces | Hex => hex_faces end) (e_t m) f j))];
  destruct H as [-> | -> ]; cbn; tauto.
Qed.
Lemma dist_sym a b : dist a b = dist b a.
Proof.
  unfold dist. f_equal. revert b. induction a as [|x a IH]; intros [|y b]; cbn [zipwith rsum fold_right]; try reflexivity.
  fold rsum. change (fold_right Rplus 0) with rsum. rewrite (IH b). ring.
Qed.
Lemma weight_sym m r i j : weight m r i j = weight m r j i.
Proof. unfold weight. now rewrite (dist_sym (ecenter m i)). Qed.
Lemma weight_nonneg m r i j : 0 <= weight m r i j.
Proof.
  unfold weight. cbv zeta. destruct (Rltb _ _); [lra|]. apply Rmult_le_pos; [apply pow2_ge_0|left; apply exp_pos].
Qed.
Lemma weight_pos m r i j : r <> 0 -> / 1000000000000 <= dist (ecenter m i) (ecenter m j) -> 0 < weight m r i j.
Proof.
  intros Hr Hd. unfold weight. cbv zeta. destruct (Rltb _ _) eqn:E; [apply Rltb_true in E; lra|].
  apply Rmult_lt_0_compat; [|apply exp_pos]. rewrite <- Rsqr_pow2. now apply Rsqr_pos_lt.
Qed.
Lemma mean_pos m : sound m -> 0 < mean_volume m.
Proof.
  intros (Hn & Hv). unfold mean_volume. apply Rdiv_lt_0_compat; [|now apply lt_0_INR].
  apply (rs_pos _ _ 0%nat); [|apply in_seq; lia|now apply Hv].
  intros y Hy. apply in_seq in Hy. left. apply Hv. lia.
Qed.
Lemma vnorm_pos m i : sound m -> (i < nel m)%nat -> 0 < vnorm m i.
Proof. intros Hs Hi. unfold vnorm. apply Rdiv_lt_0_compat; [now apply Hs|now apply mean_pos]. Qed.

(* row i of the matrix: own volume plus exchange with the neighbours *)
Lemma apply_row m r x i : (i < nel m)%nat ->
  apply m r x i = vnorm m i * x i + r ^ 2 * rsum (map (fun k => weight m r i k * (x i - x k)) (adjacent m i)).
Proof.
  intros Hi. unfold apply, Amat, laplacian.
  rewrite (rs_ext _ (fun j => (if Nat.eqb j i then vnorm m i * x i else 0) +
     r ^ 2 * ((if Nat.eqb j i then rsum (map (weight m r i) (adjacent m i)) * x i else 0) +
              rsum (map (fun k => (if Nat.eqb j k then - weight m r i k * x k else 0)) (adjacent m i))))).
  2:{ intros j _. rewrite (Nat.eqb_sym i j).
      assert (E : rsum (map (fun k => if Nat.eqb k j then - weight m r i k else 0) (adjacent m i)) * x j =
                  rsum (map (fun k => if Nat.eqb j k then - weight m r i k * x k else 0) (adjacent m i))).
      { rewrite <- rs_scal_r. apply rs_ext. intros k _. rewrite (Nat.eqb_sym k j). destruct (Nat.eqb_spec j k) as [->|]; ring. }
      rewrite <- E. destruct (Nat.eqb_spec j i) as [->|]; ring. }
  rewrite rs_plus. f_equal.
  - exact (rs_single_nat (nel m) i (fun _ => vnorm m i * x i) Hi).
  - rewrite rs_scal. f_equal. rewrite rs_plus.
    rewrite (rs_single_nat (nel m) i (fun _ => rsum (map (weight m r i) (adjacent m i)) * x i) Hi).
    rewrite rs_swap. rewrite <- rs_scal_r, <- rs_plus. apply rs_ext. intros k Hk. apply adjacent_lt in Hk. destruct Hk as (_ & Hk).
    rewrite (rs_single_nat (nel m) k (fun _ => - weight m r i k * x k) Hk). ring.
Qed.
Lemma rs_count (g : nat -> R) l n : (forall k, In k l -> (k < n)%nat) ->
  rsum (map g l) = rsum (map (fun j => INR (count_occ Nat.eq_dec l j) * g j) (seq 0 n)).
Proof.
  induction l as [|k l IH]; intros H.
  - cbn [map rsum fold_right count_occ]. symmetry. apply rs_zero. intros; cbn; ring.
  - cbn [map rsum fold_right]. change (fold_right Rplus 0 (map g l)) with (rsum (map g l)).
    rewrite IH by (intros; apply H; now right).
    rewrite <- (rs_single_nat n k (fun _ => g k)) by (apply H; now left). rewrite <- rs_plus. apply rs_ext. intros j _.
    cbn [count_occ]. destruct (Nat.eq_dec k j) as [->|Hne].
    + rewrite Nat.eqb_refl, S_INR. ring.
    + destruct (Nat.eqb_spec j k); [congruence|]. ring.
Qed.
(* exchange as a sum over all pairs, with symmetric coefficients *)
Definition coef (m : emesh) (r : R) (i j : nat) : R := INR (count_occ Nat.eq_dec (adjacent m i) j) * weight m r i j.
Lemma coef_sym m r i j : coef m r i j = coef m r j i.
Proof. unfold coef, adjacent. now rewrite C78_symmetric, weight_sym. Qed.
Lemma exchange_coef m r x i : rsum (map (fun k => weight m r i k * (x i - x k)) (adjacent m i)) =
  rsum (map (fun j => coef m r i j * (x i - x j)) (seq 0 (nel m))).
Proof.
  rewrite (rs_count _ _ (nel m)) by (intros k Hk; now apply adjacent_lt in Hk).
  apply rs_ext. intros j _. unfold coef. ring.
Qed.
Lemma pair_antisym n (c : nat -> nat -> R) (x y : nat -> R) : (forall i j, c i j = c j i) ->
  rsum (map (fun i => y i * rsum (map (fun j => c i j * (x i - x j)) (seq 0 n))) (seq 0 n)) =
  rsum (map (fun i => x i * rsum (map (fun j => c i j * (y i - y j)) (seq 0 n))) (seq 0 n)).
Proof.
  intros Hc.
  assert (E : forall u v, rsum (map (fun i => u i * rsum (map (fun j => c i j * (v i - v j)) (seq 0 n))) (seq 0 n)) =
     rsum (map (fun i => rsum (map (fun j => c i j * u i * v i) (seq 0 n))) (seq 0 n)) -
     rsum (map (fun i => rsum (map (fun j => c i j * u i * v j) (seq 0 n))) (seq 0 n))).
  { intros u v. rewrite <- rs_minus. apply rs_ext. intros i _. rewrite <- rs_minus, <- rs_scal. apply rs_ext. intros j _. ring. }
  rewrite !E. f_equal.
  - apply rs_ext. intros i _. apply rs_ext. intros j _. ring.
  - rewrite rs_swap. apply rs_ext. intros i _. apply rs_ext. intros j _. rewrite Hc. ring.
Qed.

(* a finite set of values has a largest one *)
Lemma argmax (x : nat -> R) n : (0 < n)%nat -> exists i, (i < n)%nat /\ forall j, (j < n)%nat -> x j <= x i.
Proof.
  induction n as [|n IH]; intros H; [lia|]. destruct n as [|n].
  - exists 0%nat. split; [lia|]. intros j Hj. replace j with 0%nat by lia. lra.
  - destruct IH as (i & Hi & Hm); [lia|]. destruct (Rle_dec (x i) (x (S n))) as [Hle|Hgt].
    + exists (S n). split; [lia|]. intros j Hj. destruct (Nat.eq_dec j (S n)) as [->|]; [lra|]. specialize (Hm j ltac:(lia)). lra.
    + exists i. split; [lia|]. intros j Hj. destruct (Nat.eq_dec j (S n)) as [->|]; [lra|]. apply Hm. lia.
Qed.
Lemma upper m r rho x hi : sound m -> eh_forward m r rho x -> (forall i, (i < nel m)%nat -> rho i <= hi) ->
  forall i, (i < nel m)%nat -> x i <= hi.
Proof.
  intros Hs Hf Hr i Hi. destruct (argmax x (nel m)) as (k & Hk & Hmax); [apply Hs|].
  specialize (Hf k Hk). rewrite apply_row in Hf by exact Hk.
  assert (0 <= rsum (map (fun j => weight m r k j * (x k - x j)) (adjacent m k))).
  { apply rs_nonneg. intros j Hj. apply adjacent_lt in Hj. destruct Hj as (_ & Hj). specialize (Hmax j Hj).
    apply Rmult_le_pos; [apply weight_nonneg|lra]. }
  pose proof (vnorm_pos m k Hs Hk) as Hv. specialize (Hr k Hk). specialize (Hmax i Hi).
  assert (0 <= r ^ 2) by apply pow2_ge_0.
  assert (x k <= hi); [|lra]. apply (Rmult_le_reg_l (vnorm m k)); [exact Hv|]. nra.
Qed.
Lemma forward_linear m r a b x y s t : eh_forward m r a x -> eh_forward m r b y ->
  eh_forward m r (fun i => s * a i + t * b i) (fun i => s * x i + t * y i).
Proof.
  intros Ha Hb i Hi. specialize (Ha i Hi). specialize (Hb i Hi). unfold apply in *.
  rewrite (rs_ext _ (fun j => s * (Amat m r i j * x j) + t * (Amat m r i j * y j))) by (intros; ring).
  rewrite rs_plus, !rs_scal, Ha, Hb. ring.
Qed.

(* ---------- C79 ---------- *)
(* no new extremes; constants are kept; larger densities give larger results *)
Theorem C79_maximum_principle : forall m r rho x lo hi, sound m -> eh_forward m r rho x ->
  (forall i, (i < nel m)%nat -> lo <= rho i <= hi) -> forall i, (i < nel m)%nat -> lo <= x i <= hi.
Proof.
  intros m r rho x lo hi Hs Hf Hr i Hi. split.
  - assert (H : eh_forward m r (fun i => -1 * rho i + 0 * rho i) (fun i => -1 * x i + 0 * x i)) by now apply forward_linear.
    pose proof (upper m r _ _ (- lo) Hs H) as Hu. specialize (Hu ltac:(intros k Hk; destruct (Hr k Hk); lra) i Hi). cbv beta in Hu. lra.
  - apply (upper m r rho x hi Hs Hf); auto. intros k Hk. now apply Hr.
Qed.
Print Assumptions C79_maximum_principle.

(* the result is determined by the density, and is linear in it *)
Theorem C79_well_defined : forall m r rho x y, sound m -> eh_forward m r rho x -> eh_forward m r rho y ->
  forall i, (i < nel m)%nat -> x i = y i.
Proof.
  intros m r rho x y Hs Hx Hy i Hi.
  assert (H : eh_forward m r (fun i => 1 * rho i + -1 * rho i) (fun i => 1 * x i + -1 * y i)) by now apply forward_linear.
  pose proof (C79_maximum_principle m r _ _ 0 0 Hs H) as Hm. specialize (Hm ltac:(intros; lra) i Hi). cbv beta in Hm. lra.
Qed.
Print Assumptions C79_well_defined.

(* every density has a result, for every radius *)
Theorem C79_solvable : forall m r rho, sound m -> exists x, eh_forward m r rho x.
Proof.
  intros m r rho Hs. destruct (injective_surjective (nel m) (Amat m r)) with (b := fun i => vnorm m i * rho i) as (x & Hx).
  - intros u Hu i Hi. assert (H : eh_forward m r (fun _ => 0) u).
    { intros k Hk. rewrite Rmult_0_r. exact (Hu k Hk). }
    pose proof (C79_maximum_principle m r _ _ 0 0 Hs H) as Hm. specialize (Hm ltac:(intros; lra) i Hi). lra.
  - exists x. exact Hx.
Qed.
Print Assumptions C79_solvable.

Theorem C79_constants_and_order : forall m r, sound m ->
  (forall c, eh_forward m r (fun _ => c) (fun _ => c)) /\
  (forall rho rho' x x', eh_forward m r rho x -> eh_forward m r rho' x' ->
     (forall i, (i < nel m)%nat -> rho i <= rho' i) -> forall i, (i < nel m)%nat -> x i <= x' i).
Proof.
  intros m r Hs. split.
  - intros c i Hi. rewrite apply_row by exact Hi. rewrite rs_zero; [ring|]. intros; ring.
  - intros rho rho' x x' Hx Hx' Hle i Hi.
    assert (H : eh_forward m r (fun i => 1 * rho i + -1 * rho' i) (fun i => 1 * x i + -1 * x' i)) by now apply forward_linear.
    pose proof (upper m r _ _ 0 Hs H) as Hu. specialize (Hu ltac:(intros k Hk; specialize (Hle k Hk); lra) i Hi). cbv beta in Hu. lra.
Qed.
Print Assumptions C79_constants_and_order.

Lemma vnorm_vsum m f : sound m -> vsum m f = mean_volume m * rsum (map (fun i => vnorm m i * f i) (seq 0 (nel m))).
Proof.
  intros Hs. pose proof (mean_pos m Hs). unfold vsum. rewrite <- rs_scal. apply rs_ext. intros i _. unfold vnorm. field. lra.
Qed.
Lemma forward_tested m r rho x y : eh_forward m r rho x ->
  rsum (map (fun i => vnorm m i * (y i * rho i)) (seq 0 (nel m))) =
  rsum (map (fun i => vnorm m i * (y i * x i)) (seq 0 (nel m))) +
  r ^ 2 * rsum (map (fun i => y i * rsum (map (fun j => coef m r i j * (x i - x j)) (seq 0 (nel m)))) (seq 0 (nel m))).
Proof.
  intros Hf. rewrite <- rs_scal, <- rs_plus. apply rs_ext. intros i Hi. apply in_seq in Hi.
  assert (Hi' : (i < nel m)%nat) by lia. specialize (Hf i Hi'). rewrite apply_row, exchange_coef in Hf by exact Hi'.
  replace (vnorm m i * (y i * rho i)) with (y i * (vnorm m i * rho i)) by ring. rewrite <- Hf. ring.
Qed.

(* the amount of material is kept *)
Theorem C79_volume_kept : forall m r rho x, sound m -> eh_forward m r rho x -> vsum m x = vsum m rho.
Proof.
  intros m r rho x Hs Hf. rewrite !vnorm_vsum by exact Hs. f_equal.
  pose proof (forward_tested m r rho x (fun _ => 1) Hf) as H.
  pose proof (pair_antisym (nel m) (coef m r) x (fun _ => 1) (coef_sym m r)) as HP. cbv beta in H, HP. rewrite HP in H.
  rewrite (rs_zero (fun i => x i * rsum (map (fun j => coef m r i j * (1 - 1)) (seq 0 (nel m))))) in H.
  - rewrite Rmult_0_r, Rplus_0_r in H. rewrite (rs_ext _ (fun i => vnorm m i * (1 * x i))) by (intros; ring).
    rewrite <- H. apply rs_ext. intros; ring.
  - intros i _. rewrite rs_zero; [ring|]. intros; ring.
Qed.
Print Assumptions C79_volume_kept.

(* forward is self-adjoint with respect to the volumes ... *)
Theorem C79_self_adjoint : forall m r a b x y, sound m -> eh_forward m r a x -> eh_forward m r b y ->
  vsum m (fun i => a i * y i) = vsum m (fun i => b i * x i).
Proof.
  intros m r a b x y Hs Ha Hb. rewrite !vnorm_vsum by exact Hs. f_equal.
  pose proof (forward_tested m r a x y Ha) as H1. pose proof (forward_tested m r b y x Hb) as H2.
  rewrite (pair_antisym (nel m) (coef m r) x y (coef_sym m r)) in H1.
  rewrite (rs_ext (fun i => vnorm m i * (a i * y i)) (fun i => vnorm m i * (y i * a i))) by (intros; ring).
  rewrite (rs_ext (fun i => vnorm m i * (b i * x i)) (fun i => vnorm m i * (x i * b i))) by (intros; ring).
  rewrite H1, H2. f_equal. apply rs_ext. intros; ring.
Qed.
Print Assumptions C79_self_adjoint.

(* gradient(v) is the change of the result when the density moves along v *)
Theorem C79_gradient_is_directional : forall m r rho x v g h, eh_forward m r rho x -> eh_gradient m r v g ->
  eh_forward m r (fun i => rho i + h * v i) (fun i => x i + h * g i).
Proof.
  intros m r rho x v g h Hf Hg. pose proof (forward_linear m r rho v x g 1 h Hf Hg) as H.
  intros i Hi. specialize (H i Hi). cbv beta in H. unfold apply in *.
  rewrite (rs_ext _ (fun j => Amat m r i j * (1 * x j + h * g j))) by (intros; ring). rewrite H. ring.
Qed.
Print Assumptions C79_gradient_is_directional.

(* ... whereas the chain rule (pulling back the derivative v of an objective of
   the filtered density) needs the transpose.  The two agree exactly if coupled
   elements all have the same volume: REFUTED on any graded mesh. *)
Definition chain_rule (m : emesh) (r : R) : Prop := forall u x v g,
  eh_forward m r u x -> eh_gradient m r v g ->
  psum m (fun i => v i * x i) = psum m (fun i => g i * u i).

Lemma off_diagonal m r i j : r <> 0 -> coupled m i j -> i <> j -> Amat m r i j < 0.
Proof.
  intros Hr (Hin & Hd) Hne. unfold Amat, laplacian. destruct (Nat.eqb_spec i j); [easy|].
  assert (H : 0 < rsum (map (fun k => if Nat.eqb k j then weight m r i k else 0) (adjacent m i))).
  { apply (rs_pos _ _ j); [|exact Hin|].
    - intros k _. destruct (Nat.eqb k j); [apply weight_nonneg|lra].
    - rewrite Nat.eqb_refl. now apply weight_pos. }
  assert (E : rsum (map (fun k => if Nat.eqb k j then - weight m r i k else 0) (adjacent m i)) =
     - rsum (map (fun k => if Nat.eqb k j then weight m r i k else 0) (adjacent m i))).
  { replace (- rsum (map (fun k => if Nat.eqb k j then weight m r i k else 0) (adjacent m i)))
      with (-1 * rsum (map (fun k => if Nat.eqb k j then weight m r i k else 0) (adjacent m i))) by ring.
    rewrite <- rs_scal. apply rs_ext. intros k _. destruct (Nat.eqb k j); ring. }
  rewrite E. assert (0 < r ^ 2) by (rewrite <- Rsqr_pow2; now apply Rsqr_pos_lt). nra.
Qed.
Lemma A_sym m r i j : (i < nel m)%nat -> (j < nel m)%nat -> Amat m r i j = Amat m r j i.
Proof.
  intros Hi Hj. unfold Amat, laplacian. rewrite (Nat.eqb_sym j i). destruct (Nat.eqb_spec i j) as [->|Hne]; [reflexivity|].
  f_equal. f_equal. f_equal.
  assert (E : forall a b, (b < nel m)%nat -> rsum (map (fun k => if Nat.eqb k b then - weight m r a k else 0) (adjacent m a)) = - coef m r a b).
  { intros a b Hb. rewrite (rs_count _ _ (nel m)) by (intros k Hk; now apply adjacent_lt in Hk).
    rewrite <- (rs_single_nat (nel m) b (fun _ => - coef m r a b) Hb). apply rs_ext. intros k _. unfold coef.
    destruct (Nat.eqb_spec k b) as [->|]; ring. }
  rewrite !E by assumption. now rewrite coef_sym.
Qed.
Lemma unit_forward m r j : sound m -> (j < nel m)%nat ->
  eh_forward m r (fun i => Amat m r i j / vnorm m i) (fun i => if Nat.eqb i j then 1 else 0).
Proof.
  intros Hs Hj i Hi. unfold apply. rewrite (rs_ext _ (fun k => if Nat.eqb k j then Amat m r i j else 0)).
  2:{ intros k _. destruct (Nat.eqb_spec k j) as [->|]; ring. }
  rewrite (rs_single_nat (nel m) j (fun _ => Amat m r i j) Hj). pose proof (vnorm_pos m i Hs Hi). field. lra.
Qed.

Theorem C79_chain_rule_iff : forall m r, sound m -> r <> 0 ->
  (chain_rule m r <-> forall i j, coupled m i j -> volume m i = volume m j).
Proof.
  intros m r Hs Hr. pose proof (mean_pos m Hs) as Hmp. split.
  - intros Hc i j Hij. destruct (Nat.eq_dec i j) as [->|Hne]; [reflexivity|].
    destruct (adjacent_lt m i j (proj1 Hij)) as (Hi & Hj).
    pose proof (Hc _ _ _ _ (unit_forward m r j Hs Hj) (unit_forward m r i Hs Hi)) as E. unfold psum in E.
    rewrite (rs_ext _ (fun k => if Nat.eqb k j then Amat m r j i / vnorm m j else 0)) in E.
    2:{ intros k _. destruct (Nat.eqb_spec k j) as [->|]; ring. }
    rewrite (rs_single_nat (nel m) j (fun _ => Amat m r j i / vnorm m j) Hj) in E.
    rewrite (rs_ext _ (fun k => if Nat.eqb k i then Amat m r i j / vnorm m i else 0)) in E.
    2:{ intros k _. destruct (Nat.eqb_spec k i) as [->|]; ring. }
    rewrite (rs_single_nat (nel m) i (fun _ => Amat m r i j / vnorm m i) Hi) in E.
    rewrite (A_sym m r j i) in E by assumption. pose proof (off_diagonal m r i j Hr Hij Hne) as HA.
    pose proof (vnorm_pos m i Hs Hi) as Vi. pose proof (vnorm_pos m j Hs Hj) as Vj.
    assert (Hv : vnorm m i = vnorm m j).
    { apply (Rmult_eq_reg_l (Amat m r i j)); [|lra].
      apply (f_equal (fun z => z * (vnorm m i * vnorm m j))) in E. field_simplify in E; lra. }
    unfold vnorm in Hv. apply (f_equal (fun z => z * mean_volume m)) in Hv. field_simplify in Hv; lra.
  - intros Hv u x v g Hf Hg.
    (* dividing by the volumes commutes with the exchange *)
    assert (Hc : forall i j, coef m r i j * / volume m i = coef m r i j * / volume m j).
    { intros i j. unfold coef. destruct (count_occ Nat.eq_dec (adjacent m i) j) as [|k] eqn:Ec; [cbn [INR]; ring|].
      assert (Hin : In j (adjacent m i)) by (apply (count_occ_In Nat.eq_dec); lia).
      unfold weight. cbv zeta. destruct (Rltb (dist (ecenter m i) (ecenter m j)) (/ 1000000000000)) eqn:Ed; [ring|].
      apply Rltb_false in Ed. rewrite (Hv i j); [ring|]. split; [exact Hin|lra]. }
    assert (Hdiv : eh_forward m r (fun i => v i / volume m i) (fun i => g i / volume m i)).
    { intros i Hi. specialize (Hg i Hi). rewrite apply_row in Hg by exact Hi. rewrite exchange_coef in Hg.
      rewrite apply_row by exact Hi. pose proof (exchange_coef m r (fun i => g i / volume m i) i) as HX. cbv beta in HX |- *. rewrite HX.
      rewrite (rs_ext _ (fun j => coef m r i j * (g i - g j) * / volume m i)).
      2:{ intros j _. unfold Rdiv. rewrite Rmult_minus_distr_l.
          replace (coef m r i j * (g j * / volume m j)) with (g j * (coef m r i j * / volume m j)) by ring. rewrite <- (Hc i j). ring. }
      rewrite rs_scal_r. unfold Rdiv. rewrite <- (Rmult_assoc (vnorm m i) (v i)), <- Hg. ring. }
    pose proof (C79_self_adjoint m r _ _ _ _ Hs Hf Hdiv) as E. unfold vsum in E. unfold psum.
    rewrite (rs_ext (fun i => v i * x i) (fun i => volume m i * (v i / volume m i * x i))).
    2:{ intros i Hi. apply in_seq in Hi. destruct Hs as (_ & Hp). specialize (Hp i ltac:(lia)). field. lra. }
    rewrite <- E. apply rs_ext. intros i Hi. apply in_seq in Hi. destruct Hs as (_ & Hp). specialize (Hp i ltac:(lia)). field. lra.
Qed.
Print Assumptions C79_chain_rule_iff.

(* REFUTED for hexahedra in scikit-fem's numbering: the filter does nothing,
   whatever the radius. *)
Theorem C79_refuted_hexahedra : forall m r rho x, e_kind m = Hex -> skfem_hex_mesh (e_t m) -> sound m ->
  eh_forward m r rho x -> forall i, (i < nel m)%nat -> x i = rho i.
Proof.
  intros m r rho x Hk Hm Hs Hf i Hi. specialize (Hf i Hi). rewrite apply_row in Hf by exact Hi.
  assert (E : adjacent m i = []) by (unfold adjacent; rewrite Hk; now apply C78_refuted_hexahedra).
  rewrite E in Hf. cbn in Hf. pose proof (vnorm_pos m i Hs Hi). nra.
Qed.
Print Assumptions C79_refuted_hexahedra.

(* REFUTED: independence of the unit of length.  Measuring the same body and the
   same radius in a unit s times smaller multiplies the exchange by s^4; the two
   results agree only for densities the filter does not change at all. *)
Definition rescaled (s : R) (m : emesh) : emesh := mkE (e_kind m) (e_t m) (map (vscale s) (e_p m)).

Lemma pt_scale s p k : pt (map (vscale s) p) k = vscale s (pt p k).
Proof.
  unfold pt. assert (E : v0 = vscale s v0) by (unfold v0, vscale, vx, vy, vz; cbn; f_equal; [f_equal|]; ring).
  rewrite E at 1. apply map_nth.
Qed.
Lemma tet_vol6_scale s a b c d : 0 < s -> tet_vol6 (vscale s a) (vscale s b) (vscale s c) (vscale s d) = s ^ 3 * tet_vol6 a b c d.
Proof.
  intros Hs. unfold tet_vol6. rewrite <- (Rabs_right (s ^ 3)) at 1 by (apply Rle_ge, pow_le; lra).
  unfold Rdiv. rewrite <- Rmult_assoc, <- Rabs_mult. f_equal. f_equal.
  destruct a as [[a1 a2] a3], b as [[b1 b2] b3], c as [[c1 c2] c3], d as [[d1 d2] d3].
  unfold vdot, vcross, vsub, vscale, vx, vy, vz. cbn [fst snd]. ring.
Qed.
Lemma volume_scale s m i : 0 < s -> volume (rescaled s m) i = s ^ 3 * volume m i.
Proof.
  intros Hs. unfold volume, corner, rescaled. cbn [e_kind e_t e_p]. destruct (e_kind m); cbv zeta; rewrite !pt_scale, !tet_vol6_scale by exact Hs; ring.
Qed.
Lemma vnorm_scale s m i : 0 < s -> sound m -> vnorm (rescaled s m) i = vnorm m i.
Proof.
  intros Hs Hm. pose proof (mean_pos m Hm) as Hp. unfold vnorm.
  assert (E : mean_volume (rescaled s m) = s ^ 3 * mean_volume m).
  { unfold mean_volume, nel. change (e_t (rescaled s m)) with (e_t m). rewrite (rs_ext _ (fun i => s ^ 3 * volume m i)) by (intros; now apply volume_scale).
    rewrite rs_scal. unfold Rdiv. ring. }
  rewrite E, volume_scale by exact Hs. assert (s ^ 3 <> 0) by (apply pow_nonzero; lra). field. split; lra.
Qed.
Lemma nth_map_points s p a k : (k < 3)%nat -> nth k (nth a (map to_point (map (vscale s) p)) []) 0 = s * nth k (nth a (map to_point p) []) 0.
Proof.
  intros Hk. rewrite map_map. destruct (Nat.lt_ge_cases a (List.length p)) as [Ha|Ha].
  - assert (E1 : forall h : vec3 -> point, nth a (map h p) ([] : point) = h (nth a p v0)).
    { intros h. transitivity (nth a (map h p) (h v0)); [apply nth_indep; now rewrite map_length|apply map_nth]. }
    pose proof (E1 (fun x => to_point (vscale s x))) as E2. pose proof (E1 to_point) as E3. unfold point in *. rewrite E2, E3.
    destruct (nth a p v0) as [[a1 a2] a3]. unfold to_point, vscale, vx, vy, vz. cbn [fst snd].
    destruct k as [|[|[|k]]]; cbn [nth]; try ring. lia.
  - rewrite !nth_overflow with (n := a) by (now rewrite map_length). destruct k; cbn; ring.
Qed.
Lemma ecenter_scale s m i : ecenter (rescaled s m) i = map (Rmult s) (ecenter m i).
Proof.
  unfold ecenter, get_element_centers, rescaled. cbn [e_t e_p].
  assert (E : forall nodes, center 3 (map to_point (map (vscale s) (e_p m))) nodes = map (Rmult s) (center 3 (map to_point (e_p m)) nodes)).
  { intros nodes. unfold center. transitivity (map (fun k => s * (rsum (map (fun i0 => nth k (nth i0 (map to_point (e_p m)) []) 0) nodes) / INR (List.length nodes))) (seq 0 3)).
    2:{ symmetry. apply (map_map (fun k => rsum (map (fun i0 => nth k (nth i0 (map to_point (e_p m)) []) 0) nodes) / INR (List.length nodes)) (Rmult s)). }
    apply map_ext_in. intros k Hk. apply in_seq in Hk.
    rewrite (rs_ext _ (fun i0 => s * nth k (nth i0 (map to_point (e_p m)) []) 0)) by (intros; apply nth_map_points; lia).
    rewrite rs_scal. unfold Rdiv. ring. }
  rewrite (map_ext _ _ E). rewrite <- (map_map (center 3 (map to_point (e_p m))) (map (Rmult s))).
  change (@nil R) with (map (Rmult s) []) at 1. apply map_nth.
Qed.
Lemma dist_scale s a : forall b, 0 < s -> dist (map (Rmult s) a) (map (Rmult s) b) = s * dist a b.
Proof.
  intros b Hs. unfold dist.
  assert (E : rsum (zipwith (fun x y => (x - y) * (x - y)) (map (Rmult s) a) (map (Rmult s) b)) = s ^ 2 * rsum (zipwith (fun x y => (x - y) * (x - y)) a b)).
  { revert b. induction a as [|x a IH]; intros [|y b]; cbn [map zipwith rsum fold_right]; try ring.
    specialize (IH b). unfold rsum in IH. rewrite IH. ring. }
  rewrite E, sqrt_mult_alt by apply pow2_ge_0. rewrite sqrt_pow2 by lra. reflexivity.
Qed.

Theorem C79_refuted_units : forall m r s rho x, sound m -> r <> 0 -> 0 < s -> s <> 1 ->
  (forall i j, In j (adjacent m i) -> / 1000000000000 <= dist (ecenter m i) (ecenter m j) /\
                                      / 1000000000000 <= s * dist (ecenter m i) (ecenter m j)) ->
  eh_forward m r rho x -> eh_forward (rescaled s m) (s * r) rho x ->
  forall i, (i < nel m)%nat -> x i = rho i.
Proof.
  intros m r s rho x Hm Hr Hs Hs1 Hd Hf Hf' i Hi. specialize (Hf i Hi).
  assert (Hi' : (i < nel (rescaled s m))%nat) by exact Hi. specialize (Hf' i Hi').
  rewrite apply_row in Hf by exact Hi. rewrite apply_row in Hf' by exact Hi'. rewrite vnorm_scale in Hf' by assumption.
  change (adjacent (rescaled s m) i) with (adjacent m i) in Hf'.
  rewrite (rs_ext (fun k => weight (rescaled s m) (s * r) i k * (x i - x k)) (fun k => s ^ 2 * (weight m r i k * (x i - x k)))) in Hf'.
  2:{ intros k Hk. destruct (Hd i k Hk) as (D1 & D2). unfold weight. cbv zeta. rewrite !ecenter_scale, dist_scale by exact Hs.
      destruct (Rltb _ _) eqn:E1; [apply Rltb_true in E1; lra|]. destruct (Rltb (dist _ _) _) eqn:E2; [apply Rltb_true in E2; lra|].
      replace (- (s * dist (ecenter m i) (ecenter m k)) ^ 2 / (2 * (s * r) ^ 2)) with (- dist (ecenter m i) (ecenter m k) ^ 2 / (2 * r ^ 2)); [ring|].
      field. lra. }
  rewrite rs_scal in Hf'. set (S := rsum (map (fun k => weight m r i k * (x i - x k)) (adjacent m i))) in *.
  assert (Hr2 : r ^ 2 <> 0) by now apply pow_nonzero.
  assert (HS : S = 0).
  { assert (E : r ^ 2 * S * (s ^ 4 - 1) = 0).
    { replace (r ^ 2 * S * (s ^ 4 - 1)) with ((vnorm m i * x i + (s * r) ^ 2 * (s ^ 2 * S)) - (vnorm m i * x i + r ^ 2 * S)) by ring. lra. }
    apply Rmult_integral in E. destruct E as [E|E]; [apply Rmult_integral in E; destruct E; [easy|assumption]|].
    exfalso. assert (E2 : (s - 1) * ((s + 1) * (s ^ 2 + 1)) = 0) by (rewrite <- E; ring).
    apply Rmult_integral in E2. assert (0 < s ^ 2) by (apply pow_lt; lra). destruct E2 as [E2|E2]; [lra|]. nra. }
  rewrite HS in Hf. pose proof (vnorm_pos m i Hm Hi). nra.
Qed.
Print Assumptions C79_refuted_units.

(* the volume of a hexahedron: the six tetrahedra do not tile it (one is listed
   twice), but for a parallelepiped in scikit-fem's numbering the sum is 5/6 of
   the volume, so that the ratios of the volumes are right on such meshes *)
Definition parallelepiped (m : emesh) (i : nat) (o a b c : vec3) : Prop :=
  let at_ x y z := vadd o (vadd (vscale x a) (vadd (vscale y b) (vscale z c))) in
  corner m i 0 = at_ 0 0 0 /\ corner m i 1 = at_ 1 0 0 /\ corner m i 2 = at_ 0 1 0 /\ corner m i 3 = at_ 0 0 1 /\
  corner m i 4 = at_ 1 1 0 /\ corner m i 5 = at_ 1 0 1 /\ corner m i 6 = at_ 0 1 1 /\ corner m i 7 = at_ 1 1 1.

Theorem C79_hexahedron_volume : forall m i o a b c, e_kind m = Hex -> parallelepiped m i o a b c ->
  volume m i = 5 / 6 * Rabs (det3 a b c).
Proof.
  intros m i o a b c Hk (H0' & H1' & H2' & H3' & H4' & H5' & H6' & H7'). unfold volume. rewrite Hk. cbv zeta.
  rewrite H0', H1', H2', H3', H4', H5', H6', H7'. unfold tet_vol6.
  assert (T : forall x y, x = y \/ x = - y -> Rabs x = Rabs y) by (intros x y [-> | -> ]; [reflexivity|apply Rabs_Ropp]).
  destruct o as [[o1 o2] o3], a as [[a1 a2] a3], b as [[b1 b2] b3], c as [[c1 c2] c3].
  unfold det3, vdot, vcross, vsub, vadd, vscale, vx, vy, vz. cbn [fst snd].
  set (D := a1 * (b2 * c3 - b3 * c2) - b1 * (a2 * c3 - a3 * c2) + c1 * (a2 * b3 - a3 * b2)).
  repeat match goal with |- context [Rabs ?e] =>
    lazymatch e with D => fail | _ =>
      first [ assert (E : Rabs e = Rabs D) by (apply T; left; unfold D; ring)
            | assert (E : Rabs e = Rabs D) by (apply T; right; unfold D; ring)
            | assert (E : Rabs e = 0) by (rewrite <- Rabs_R0; f_equal; ring) ]; rewrite E; clear E end end.
  field.
Qed.
Print Assumptions C79_hexahedron_volume.

(* an instance: two tetrahedra on a common face, the second twice as large *)
Definition ex_graded : emesh := mkE Tet two_tets [(0, 0, 0); (1, 0, 0); (0, 1, 0); (0, 0, 1); (1, 1, 1)].
Example C79_instance : sound ex_graded /\ coupled ex_graded 0 1 /\ volume ex_graded 1 = 2 * volume ex_graded 0 /\
  ~ chain_rule ex_graded 1 /\ exists x, eh_forward ex_graded 1 (fun i => if Nat.eqb i 0 then 1 else 0) x.
Proof.
  assert (V0 : volume ex_graded 0 = 1 / 6).
  { unfold volume, tet_vol6, vdot, vcross, vsub, vx, vy, vz. cbn. rewrite Rabs_right; lra. }
  assert (V1 : volume ex_graded 1 = 2 / 6).
  { unfold volume, tet_vol6, vdot, vcross, vsub, vx, vy, vz. cbn. rewrite Rabs_right; lra. }
  assert (Hs : sound ex_graded).
  { split; [cbn; lia|]. intros i Hi. cbn in Hi. destruct i as [|[|i]]; [lra|lra|lia]. }
  assert (Hc : coupled ex_graded 0 1).
  { split; [cbn; tauto|]. rewrite <- (sqrt_Rsqr (/ 1000000000000)) by lra. unfold dist. apply sqrt_le_1_alt.
    unfold ecenter, get_element_centers, center, Rsqr. cbn. lra. }
  repeat (split; [assumption || lra|]). split; [|now apply C79_solvable].
  intros H. pose proof (proj1 (C79_chain_rule_iff ex_graded 1 Hs R1_neq_R0) H 0%nat 1%nat Hc). lra.
Qed.
