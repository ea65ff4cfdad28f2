From Coq Require Import Lia Lra Sorting.Sorted Permutation.
From Verif Require Import Base Sums Mesh_model OC_model Stats_model Stats_spec.
From Verif Require Toy_model.
Open Scope R_scope.
Open Scope list_scope.

(* ---- sorting ---- *)
Lemma insert_perm x l : Permutation (x :: l) (insert_r x l).
Proof.
  induction l as [|y l IH]; cbn [insert_r]; [reflexivity|]. destruct (Rle_dec x y); [reflexivity|].
  rewrite perm_swap. now apply perm_skip.
Qed.
Lemma sort_perm l : Permutation l (sort_r l).
Proof.
  induction l as [|x l IH]; [reflexivity|]. change (sort_r (x :: l)) with (insert_r x (sort_r l)).
  rewrite <- insert_perm. now apply perm_skip.
Qed.
Lemma insert_sorted x l : Sorted Rle l -> Sorted Rle (insert_r x l).
Proof.
  induction l as [|y l IH]; intros S; cbn [insert_r]; [repeat constructor|].
  destruct (Rle_dec x y) as [L|L]; [constructor; [exact S|now constructor]|].
  apply Sorted_inv in S. destruct S as [S Hd]. constructor; [now apply IH|].
  destruct l as [|z l]; cbn [insert_r]; [constructor; lra|].
  destruct (Rle_dec x z); constructor; [lra|]. now inversion Hd.
Qed.
Lemma sort_sorted l : Sorted Rle (sort_r l).
Proof. induction l as [|x l IH]; [constructor|]. change (sort_r (x :: l)) with (insert_r x (sort_r l)). now apply insert_sorted. Qed.
Lemma sorted_head x l : Sorted Rle (x :: l) -> forall y, In y (x :: l) -> x <= y.
Proof.
  intros S. apply Sorted_StronglySorted in S; [|intros a b c; lra].
  apply StronglySorted_inv in S. destruct S as [_ F]. rewrite Forall_forall in F.
  intros y [<-|H]; [lra|now apply F].
Qed.

(* ---- distances ---- *)
Lemma norm_dist a b : Toy_model.sub_norm a b = dist3 a b.
Proof.
  destruct a as [[ax ay] az], b as [[bx by_] bz]. unfold Toy_model.sub_norm, dist3, vx, vy, vz. cbn [fst snd]. f_equal. ring.
Qed.
Lemma dist_self a : dist3 a a = 0.
Proof. destruct a as [[x y] z]. unfold dist3. replace (_ + _ + _) with 0 by ring. apply sqrt_0. Qed.
Lemma dist_nonneg a b : 0 <= dist3 a b.
Proof. destruct a as [[x y] z], b as [[u v] w]. apply sqrt_pos. Qed.
Lemma dist_zero a b : dist3 a b = 0 -> a = b.
Proof.
  destruct a as [[x y] z], b as [[u v] w]. unfold dist3. intros H.
  pose proof (pow2_ge_0 (x - u)). pose proof (pow2_ge_0 (y - v)). pose proof (pow2_ge_0 (z - w)).
  apply sqrt_eq_0 in H; [|lra].
  assert (forall t, t ^ 2 = 0 -> t = 0) as Z. { intros t Ht. destruct (Req_dec t 0) as [e|e]; [exact e|]. exfalso. apply (pow_nonzero t 2 e). exact Ht. }
  assert (x = u) by (assert (x - u = 0) by (apply Z; lra); lra).
  assert (y = v) by (assert (y - v = 0) by (apply Z; lra); lra).
  assert (z = w) by (assert (z - w = 0) by (apply Z; lra); lra). now subst.
Qed.
Lemma second_min l1 l2 : (forall x, In x (l1 ++ l2) -> 0 <= x) -> l1 ++ l2 <> [] ->
  exists d, nth_error (sort_r (l1 ++ 0 :: l2)) 1 = Some d /\ In d (l1 ++ l2) /\ forall x, In x (l1 ++ l2) -> d <= x.
Proof.
  intros NN NE. pose proof (sort_perm (l1 ++ 0 :: l2)) as P. pose proof (sort_sorted (l1 ++ 0 :: l2)) as S.
  set (s := sort_r (l1 ++ 0 :: l2)) in *. clearbody s.
  assert (P0 : Permutation (0 :: l1 ++ l2) s) by (rewrite <- P; apply Permutation_middle).
  destruct s as [|h s]; [apply Permutation_sym, Permutation_nil in P0; discriminate|].
  assert (h = 0).
  { assert (H0i : In 0 (h :: s)) by (eapply Permutation_in; [exact P0|now left]).
    pose proof (sorted_head h s S 0 H0i).
    assert (Hh : In h (0 :: l1 ++ l2)) by (eapply Permutation_in; [apply Permutation_sym, P0|now left]).
    destruct Hh as [Hh|Hh]; [lra|]. pose proof (NN h Hh). lra. }
  subst h. apply Permutation_cons_inv in P0. apply Sorted_inv in S. destruct S as [S _].
  destruct s as [|d s]; [apply Permutation_sym, Permutation_nil in P0; contradiction|].
  exists d. split; [reflexivity|]. split.
  - eapply Permutation_in; [apply Permutation_sym, P0|now left].
  - intros x Hx. apply (sorted_head d s S). eapply Permutation_in; [exact P0|exact Hx].
Qed.
Lemma distances_split p i : (i < List.length p)%nat -> exists l1 l2, distances p i = l1 ++ 0 :: l2 /\
  (forall x, In x (l1 ++ l2) <-> exists j, (j < List.length p)%nat /\ j <> i /\ x = dist3 (nth i p v0) (nth j p v0)) /\
  List.length (l1 ++ l2) = (List.length p - 1)%nat.
Proof.
  intros Hi. set (n := List.length p) in *. set (f := fun j => dist3 (nth i p v0) (nth j p v0)).
  exists (map f (seq 0 i)), (map f (seq (S i) (n - S i))).
  assert (E : distances p i = map f (seq 0 n)).
  { unfold distances, f. fold n. apply map_ext. intros j. apply norm_dist. }
  split; [|split].
  - rewrite E. replace n with (i + (1 + (n - S i)))%nat at 1 by lia. rewrite seq_app, map_app. cbn [Nat.add seq map].
    unfold f at 2. now rewrite dist_self.
  - intros x. rewrite <- map_app, in_map_iff. split.
    + intros (j & <- & Hj). rewrite in_app_iff, !in_seq in Hj. exists j. repeat split; lia.
    + intros (j & Hj & Hne & ->). exists j. split; [reflexivity|]. rewrite in_app_iff, !in_seq. lia.
  - rewrite <- map_app, map_length, app_length, !seq_length. lia.
Qed.
Lemma second_spec p i : (i < List.length p)%nat -> (2 <= List.length p)%nat ->
  exists d, second_distance p i = Some d /\ nearest_other p i d.
Proof.
  intros Hi H2. destruct (distances_split p i Hi) as (l1 & l2 & E & IN & L).
  destruct (second_min l1 l2) as (d & Hd & Hin & Hle).
  - intros x Hx. apply IN in Hx. destruct Hx as (j & _ & _ & ->). apply dist_nonneg.
  - intros Hz. rewrite Hz in L. cbn in L. lia.
  - exists d. unfold second_distance. rewrite E. split; [exact Hd|]. split.
    + apply IN in Hin. exact Hin.
    + intros j Hj Hne. apply Hle. apply IN. exists j. auto.
Qed.
Lemma single_none a i : second_distance [a] i = None.
Proof. reflexivity. Qed.

(* all_finite *)
Lemma finite_map {A} (f : A -> option R) (l : list A) : (forall a, In a l -> exists x, f a = Some x) ->
  exists r, all_finite (map f l) = Ok r /\ List.length r = List.length l /\ forall i a d, nth_error l i = Some a -> f a = Some (nth i r d).
Proof.
  induction l as [|a l IH]; intros H; cbn [map all_finite].
  - exists []. repeat split. intros [|i]; discriminate.
  - destruct (H a (or_introl eq_refl)) as [x Hx]. rewrite Hx. destruct IH as (r & Er & Lr & Nr).
    { intros b Hb. apply H. now right. }
    rewrite Er. cbn [bind]. exists (x :: r). repeat split; [cbn [List.length]; now rewrite Lr|].
    intros [|i] b d Hb; cbn [nth_error] in Hb; cbn [nth]; [injection Hb as <-; exact Hx|now apply Nr].
Qed.
Lemma nearest_ok p : (2 <= List.length p)%nat -> exists l, all_finite (nearest_dists p) = Ok l /\ nearest_list p l.
Proof.
  intros H2. unfold nearest_dists. destruct (finite_map (second_distance p) (seq 0 (List.length p))) as (r & Er & Lr & Nr).
  { intros i Hi. apply in_seq in Hi. destruct (second_spec p i) as (d & Hd & _); [lia|exact H2|]. eauto. }
  exists r. split; [exact Er|]. rewrite seq_length in Lr. split; [exact Lr|]. intros i Hi.
  destruct (second_spec p i Hi H2) as (d & Hd & Hn).
  assert (E : nth_error (seq 0 (List.length p)) i = Some i).
  { rewrite (nth_error_nth' _ 0%nat) by (rewrite seq_length; exact Hi). now rewrite seq_nth. }
  pose proof (Nr i i 0 E) as Q. rewrite Hd in Q. injection Q as <-. exact Hn.
Qed.
Lemma nearest_unique p i d d' : nearest_other p i d -> nearest_other p i d' -> d = d'.
Proof.
  intros [(j & Hj & Nj & Ej) Mj] [(k & Hk & Nk & Ek) Mk]. pose proof (Mj k Hk Nk). pose proof (Mk j Hj Nj). lra.
Qed.
Lemma nearest_single a : all_finite (nearest_dists [a]) = Err ValueError.
Proof. reflexivity. Qed.
Lemma nearest_ok_inv p l : all_finite (nearest_dists p) = Ok l -> p <> [] -> nearest_list p l.
Proof.
  intros H NE. destruct p as [|a [|b p]]; [contradiction|rewrite nearest_single in H; discriminate|].
  destruct (nearest_ok (a :: b :: p)) as (l' & E & N); [cbn [List.length]; lia|]. rewrite E in H. injection H as <-. exact N.
Qed.

(* ---- summaries ---- *)
Lemma fold_min_spec l : forall x, (fold_left Rmin l x = x \/ In (fold_left Rmin l x) l) /\
  fold_left Rmin l x <= x /\ forall y, In y l -> fold_left Rmin l x <= y.
Proof.
  induction l as [|a l IH]; intros x; cbn [fold_left].
  - repeat split; [now left|lra|intros y []].
  - destruct (IH (Rmin x a)) as (H1' & H2' & H3'). pose proof (Rmin_l x a). pose proof (Rmin_r x a). repeat split.
    + destruct H1' as [H1'|H1']; [|right; now right]. rewrite H1'. destruct (Rle_dec x a); [left|right; left].
      * now apply Rmin_left. * symmetry. apply Rmin_right. lra.
    + lra.
    + intros y [<-|Hy]; [lra|now apply H3'].
Qed.
Lemma fold_max_spec l : forall x, (fold_left Rmax l x = x \/ In (fold_left Rmax l x) l) /\
  x <= fold_left Rmax l x /\ forall y, In y l -> y <= fold_left Rmax l x.
Proof.
  induction l as [|a l IH]; intros x; cbn [fold_left].
  - repeat split; [now left|lra|intros y []].
  - destruct (IH (Rmax x a)) as (H1' & H2' & H3'). pose proof (Rmax_l x a). pose proof (Rmax_r x a). repeat split.
    + destruct H1' as [H1'|H1']; [|right; now right]. rewrite H1'. destruct (Rle_dec a x); [left|right; left].
      * now apply Rmax_left. * symmetry. apply Rmax_right. lra.
    + lra.
    + intros y [<-|Hy]; [lra|now apply H3'].
Qed.
Lemma mean_mul l : l <> [] -> INR (List.length l) * Toy_model.mean l = rsum l.
Proof. intros H. unfold Toy_model.mean. field. apply not_0_INR. destruct l; [easy|cbn; lia]. Qed.
Lemma rsum_nonneg l : (forall x, In x l -> 0 <= x) -> 0 <= rsum l.
Proof.
  induction l as [|x l IH]; intros H; [cbn; lra|]. change (rsum (x :: l)) with (x + rsum l).
  pose proof (H x (or_introl eq_refl)). assert (0 <= rsum l) by (apply IH; intros; apply H; now right). lra.
Qed.
Lemma summary_ok l : l <> [] -> let s := summarise l in describes l (s_min s) (s_max s) (s_mean s) (s_median s) (s_std s).
Proof.
  intros NE. cbn zeta. unfold summarise. cbn [s_min s_max s_mean s_median s_std]. constructor.
  - destruct l as [|x l]; [contradiction|]. unfold np_min. destruct (fold_min_spec l x) as (H1' & H2' & H3'). split.
    + destruct H1' as [->|H]; [now left|now right]. + intros y [<-|Hy]; [lra|now apply H3'].
  - destruct l as [|x l]; [contradiction|]. unfold np_max. destruct (fold_max_spec l x) as (H1' & H2' & H3'). split.
    + destruct H1' as [->|H]; [now left|now right]. + intros y [<-|Hy]; [lra|now apply H3'].
  - now apply mean_mul.
  - exists (sort_r l). split; [apply sort_perm|]. split; [apply sort_sorted|]. unfold np_median.
    destruct (Nat.odd (List.length l)) eqn:O.
    + left. apply Nat.odd_spec in O. destruct O as [k Hk]. exists k. split; [exact Hk|]. rewrite Hk.
      replace ((2 * k + 1) / 2)%nat with k; [reflexivity|]. replace (2 * k + 1)%nat with (1 + k * 2)%nat by lia. now rewrite Nat.div_add by lia.
    + right. assert (Ev : Nat.even (List.length l) = true) by (rewrite <- Nat.negb_odd, O; reflexivity).
      apply Nat.even_spec in Ev. destruct Ev as [k Hk]. destruct k as [|k]; [destruct l; [contradiction|cbn in Hk; lia]|].
      exists k. split; [lia|]. rewrite Hk. replace (2 * S k / 2)%nat with (S k) by (rewrite Nat.mul_comm, Nat.div_mul; lia).
      replace (S k - 1)%nat with k by lia. reflexivity.
  - set (mu := Toy_model.mean l). unfold np_std. fold mu. split; [apply sqrt_pos|].
    set (v := map (fun x => (x - mu) * (x - mu)) l). assert (Lv : List.length v = List.length l) by apply map_length.
    assert (NEv : v <> []) by (destruct l; [contradiction|discriminate]).
    assert (Pl : 0 < INR (List.length l)) by (apply lt_0_INR; destruct l; [contradiction|cbn; lia]).
    assert (Pv : 0 <= Toy_model.mean v).
    { unfold Toy_model.mean. rewrite Lv. apply Rmult_le_pos; [|left; now apply Rinv_0_lt_compat].
      apply rsum_nonneg. intros x Hx. unfold v in Hx. apply in_map_iff in Hx. destruct Hx as (y & <- & _). apply Rle_0_sqr. }
    rewrite pow2_sqrt by exact Pv. rewrite <- Lv, mean_mul by exact NEv. unfold v. f_equal. apply map_ext. intros; ring.
Qed.
