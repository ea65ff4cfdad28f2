From Verif Require Import Base Sums OC_model OC_spec Filter_model.
Open Scope R_scope.
Open Scope list_scope.

(* ---------- scatter / gather ---------- *)
Lemma upd_len l i v : List.length (upd l i v) = List.length l.
Proof. revert i. induction l as [|x l IH]; intros [|i]; simpl; auto. Qed.
Lemma upd_nth l i v j : (i < List.length l)%nat -> nth j (upd l i v) 0 = if Nat.eqb j i then v else nth j l 0.
Proof.
  revert i j. induction l as [|x l IH]; intros [|i] [|j] H; simpl in *; try lia; auto.
  apply IH. lia.
Qed.
Lemma scatter_len ids : forall full vals, List.length (scatter full ids vals) = List.length full.
Proof.
  induction ids as [|i ids IH]; intros full vals; simpl; [reflexivity|]. destruct vals as [|v vals]; [reflexivity|].
  rewrite IH. apply upd_len.
Qed.
Lemma scatter_map_nth g ids : NoDup ids -> forall full j, (forall i, In i ids -> (i < List.length full)%nat) ->
  nth j (scatter full ids (map g ids)) 0 = if in_dec Nat.eq_dec j ids then g j else nth j full 0.
Proof.
  induction 1 as [|i ids Hi Hn IH]; intros full j Hlt; cbn [scatter map]; [reflexivity|].
  rewrite IH.
  2:{ intros k Hk. rewrite upd_len. apply Hlt. now right. }
  rewrite upd_nth by (apply Hlt; now left).
  destruct (in_dec Nat.eq_dec j ids) as [Hj|Hj]; destruct (in_dec Nat.eq_dec j (i :: ids)) as [Hj'|Hj']; simpl in *; try tauto.
  - destruct (Nat.eqb_spec j i) as [->|]; [reflexivity|]. exfalso. intuition.
  - destruct (Nat.eqb_spec j i) as [->|]; [exfalso; intuition|reflexivity].
Qed.
Lemma map_nth_seq {A} (l : list A) d : map (fun k => nth k l d) (seq 0 (List.length l)) = l.
Proof.
  induction l as [|x l IH]; [reflexivity|]. simpl. f_equal. rewrite <- seq_shift, map_map. exact IH.
Qed.
Lemma map_over_nth {A} (h : A -> R) (l : list A) d : map (fun k => h (nth k l d)) (seq 0 (List.length l)) = map h l.
Proof. rewrite <- (map_map (fun k => nth k l d) h). now rewrite map_nth_seq. Qed.

Lemma ids_nodup mask n : NoDup (design_ids mask n).
Proof. apply NoDup_filter, seq_NoDup. Qed.
Lemma ids_in mask n i : In i (design_ids mask n) <-> (i < n)%nat /\ is_design mask i = true.
Proof. unfold design_ids. rewrite filter_In, in_seq. intuition lia. Qed.
Lemma ids_none n : design_ids None n = seq 0 n.
Proof.
  unfold design_ids. generalize 0%nat. induction n as [|n IH]; intros s; simpl; [reflexivity|]. now rewrite IH.
Qed.
Lemma ids_sum mask n (g : nat -> R) : rsum (map g (design_ids mask n)) = rsum (map (fun i => if is_design mask i then g i else 0) (seq 0 n)).
Proof. apply rs_filter. Qed.

(* ---------- distances ---------- *)
Lemma sqsum_nonneg a : forall b, 0 <= rsum (zipwith (fun x y => (x - y) * (x - y)) a b).
Proof. induction a as [|x a IH]; intros [|y b]; simpl; try lra. specialize (IH b). pose proof (Rle_0_sqr (x - y)). unfold Rsqr in *. lra. Qed.
Lemma dist_nonneg a b : 0 <= dist a b.
Proof. apply sqrt_pos. Qed.
Lemma dist_self a : dist a a = 0.
Proof.
  unfold dist. assert (H : rsum (zipwith (fun x y => (x - y) * (x - y)) a a) = 0).
  { induction a as [|x a IH]; simpl; [reflexivity|]. rewrite IH. lra. }
  rewrite H. apply sqrt_0.
Qed.
Lemma dist_sym a b : dist a b = dist b a.
Proof.
  unfold dist. f_equal. revert b. induction a as [|x a IH]; intros [|y b]; simpl; auto. rewrite IH. ring.
Qed.

(* ---------- the matrix ---------- *)
Section Matrix.
Variable kf : R -> R.
Variable rad : R.
Variable c : list point.
Variable ids : list nat.
Hypothesis Hpos : forall d, 0 < kf d.
Hypothesis Hrad : 0 <= rad.

Definition wraw (i j : nat) : R :=
  if Rleb (dist (nth j c []) (nth i c [])) rad then kf (dist (nth j c []) (nth i c [])) else 0.
Definition rowsum (i : nat) : R := rsum (map (wraw i) ids).
Definition entry (i j : nat) : R := wraw i j / rowsum i.

Lemma wraw_nonneg i j : 0 <= wraw i j.
Proof. unfold wraw. destruct (Rleb _ _); [left; apply Hpos|lra]. Qed.
Lemma wraw_self i : 0 < wraw i i.
Proof.
  unfold wraw. rewrite dist_self. assert (Rleb 0 rad = true) as -> by now apply Rleb_true. apply Hpos.
Qed.
Lemma rowsum_pos i : In i ids -> 0 < rowsum i.
Proof. intros Hi. apply (rs_pos _ _ i); [intros; apply wraw_nonneg|exact Hi|apply wraw_self]. Qed.
Lemma row_entry i : In i ids -> normalise_row (raw_row kf rad c ids i) = map (entry i) ids.
Proof.
  intros Hi. unfold normalise_row. change (raw_row kf rad c ids i) with (map (wraw i) ids). cbv zeta.
  pose proof (rowsum_pos i Hi) as Hp. fold (rowsum i).
  assert (Reqb (rowsum i) 0 = false) as -> by (apply Reqb_false; lra).
  rewrite map_map. apply map_ext. intros j. unfold entry. field. lra.
Qed.
Lemma has_self i : In i ids -> has_neighbour rad c ids i = true.
Proof.
  intros Hi. unfold has_neighbour. apply existsb_exists. exists i. split; [exact Hi|]. apply Rleb_true.
  now rewrite dist_self.
Qed.
Lemma entry_nonneg i j : In i ids -> 0 <= entry i j.
Proof.
  intros Hi. unfold entry, Rdiv. apply Rmult_le_pos; [apply wraw_nonneg|].
  left. apply Rinv_0_lt_compat. now apply rowsum_pos.
Qed.
Lemma entry_pos i j : In i ids -> (0 < entry i j <-> dist (nth j c []) (nth i c []) <= rad).
Proof.
  intros Hi. pose proof (rowsum_pos i Hi) as Hp. unfold entry, wraw.
  destruct (Rleb _ rad) eqn:E.
  - apply Rleb_true in E. split; [easy|]. intros _. apply Rdiv_lt_0_compat; auto.
  - apply Rleb_false in E. unfold Rdiv. rewrite Rmult_0_l. split; lra.
Qed.
Lemma entry_sum i : In i ids -> rsum (map (entry i) ids) = 1.
Proof.
  intros Hi. pose proof (rowsum_pos i Hi) as Hp. unfold entry, Rdiv. rewrite rs_scal_r.
  fold (rowsum i). field. lra.
Qed.
End Matrix.

Lemma build_ok kf rad c mask : (forall d, 0 < kf d) -> 0 <= rad ->
  design_ids mask (List.length c) <> [] ->
  build_filter_matrix kf rad c mask =
  Ok (map (fun i => map (entry kf rad c (design_ids mask (List.length c)) i) (design_ids mask (List.length c)))
          (design_ids mask (List.length c))).
Proof.
  intros Hk Hr Hne. unfold build_filter_matrix. set (ids := design_ids mask (List.length c)) in *.
  assert (existsb (has_neighbour rad c ids) ids = true) as ->.
  { destruct ids as [|i ids'] eqn:E; [easy|]. apply existsb_exists. exists i. split; [now left|].
    apply has_self; [exact Hr|now left]. }
  f_equal. apply map_ext_in. intros i Hi. now apply row_entry.
Qed.

Definition conv (kf : R -> R) (rad : R) (c : list point) (ids : list nat) (rho : list R) (i : nat) : R :=
  rsum (map (fun j => entry kf rad c ids i j * nth j rho 0) ids).
Definition conv_T (kf : R -> R) (rad : R) (c : list point) (ids : list nat) (v : list R) (j : nat) : R :=
  rsum (map (fun i => entry kf rad c ids i j * nth i v 0) ids).

Lemma matvec_entry kf rad c ids rho :
  matvec (map (fun i => map (entry kf rad c ids i) ids) ids) (gather rho ids) = map (conv kf rad c ids rho) ids.
Proof.
  unfold matvec. rewrite map_map. apply map_ext. intros i. unfold gather. rewrite zipwith_map. reflexivity.
Qed.
Lemma matvec_T_entry kf rad c ids v :
  matvec_T (List.length ids) (map (fun i => map (entry kf rad c ids i) ids) ids) (gather v ids) = map (conv_T kf rad c ids v) ids.
Proof.
  unfold matvec_T. rewrite <- (map_over_nth (conv_T kf rad c ids v) ids 0%nat). apply map_ext_in. intros k Hk.
  apply in_seq in Hk. unfold gather. rewrite zipwith_map. unfold conv_T. apply rs_ext. intros i _.
  f_equal. rewrite (nth_indep _ 0 (entry kf rad c ids i 0%nat)) by (rewrite map_length; lia).
  now rewrite map_nth.
Qed.
Lemma gather_all rho n : List.length rho = n -> gather rho (seq 0 n) = rho.
Proof. intros <-. apply map_nth_seq. Qed.
Lemma nth_map_seq' {A} (f : nat -> A) k i d : (i < k)%nat -> nth i (map f (seq 0 k)) d = f i.
Proof.
  intros H. rewrite (nth_indep _ d (f 0%nat)) by (rewrite map_length, seq_length; lia).
  rewrite map_nth. f_equal. now rewrite seq_nth.
Qed.

Section Forward.
Variable f : sfilter.
Let n := List.length (sf_centers f).
Let ids := design_ids (sf_mask f) n.
Let kf := kernel KGaussian (sf_radius f).
Hypothesis Hr : 0 < sf_radius f.
Hypothesis Hne : ids <> [].

Lemma gauss_pos d : 0 < kf d.
Proof. apply exp_pos. Qed.
Lemma support_eq : support KGaussian (sf_radius f) = sf_radius f.
Proof. simpl. field. Qed.
Definition Wof : list (list R) := map (fun i => map (entry kf (sf_radius f) (sf_centers f) ids i) ids) ids.

Lemma forward_eq rho : List.length rho = n ->
  sf_forward f rho = Ok (mkSF (sf_centers f) (sf_mask f) (sf_radius f) (Some Wof),
     map (fun i => if is_design (sf_mask f) i then conv kf (sf_radius f) (sf_centers f) ids rho i else nth i rho 0) (seq 0 n)).
Proof.
  intros Hlen. unfold sf_forward. assert (Reqb (sf_radius f) 0 = false) as -> by (apply Reqb_false; lra).
  rewrite support_eq. fold kf. rewrite build_ok; [|apply gauss_pos|lra|exact Hne].
  fold n ids. cbn [bind]. rewrite Hlen, Nat.eqb_refl. cbn [negb]. fold Wof. f_equal. f_equal.
  unfold Wof. case_eq (sf_mask f); [intros m Em|intros Em].
  - rewrite matvec_entry.
    apply (nth_ext _ _ 0 0); rewrite scatter_len, ?map_length, ?seq_length; [exact Hlen|].
    intros j Hj. rewrite Hlen in Hj.
    assert (Hin : forall i, In i ids -> (i < n)%nat /\ is_design (Some m) i = true).
    { intros i Hi. unfold ids in Hi. try rewrite Em in Hi. now apply ids_in in Hi. }
    rewrite scatter_map_nth.
    + rewrite nth_map_seq' by lia. destruct (in_dec Nat.eq_dec j ids) as [Hd|Hd].
      * destruct (Hin j Hd) as (_ & ->). reflexivity.
      * destruct (is_design (Some m) j) eqn:Ed; [|reflexivity].
        exfalso. apply Hd. unfold ids. try rewrite Em. apply ids_in. auto.
    + apply ids_nodup.
    + intros i Hi. rewrite Hlen. now apply Hin.
  - assert (Hids : ids = seq 0 n) by (unfold ids; try rewrite Em; apply ids_none).
    match goal with |- matvec ?W rho = _ => transitivity (matvec W (gather rho ids)) end.
    + f_equal. rewrite Hids. symmetry. now apply gather_all.
    + rewrite matvec_entry. rewrite <- Hids. reflexivity.
Qed.

Lemma gradient_eq g v : sf_centers g = sf_centers f -> sf_mask g = sf_mask f -> sf_W g = Some Wof -> List.length v = n ->
  sf_gradient g v = Ok (map (fun j => if is_design (sf_mask f) j then conv_T kf (sf_radius f) (sf_centers f) ids v j else 0) (seq 0 n)).
Proof.
  intros Hc Hm HW Hlen. unfold sf_gradient. rewrite HW, Hc, Hm. fold n. rewrite Hlen, Nat.eqb_refl. cbn [negb].
  unfold Wof. case_eq (sf_mask f); [intros m Em|intros Em].
  - f_equal. assert (Hids : design_ids (Some m) n = ids) by (unfold ids; try rewrite Em; reflexivity). rewrite Hids.
    rewrite matvec_T_entry.
    apply (nth_ext _ _ 0 0); rewrite scatter_len, ?map_length, ?seq_length, ?repeat_length; [reflexivity|].
    intros j Hj.
    assert (Hin : forall i, In i ids -> (i < n)%nat /\ is_design (Some m) i = true).
    { intros i Hi. rewrite <- Hids in Hi. now apply ids_in in Hi. }
    rewrite scatter_map_nth.
    + rewrite nth_map_seq' by lia. destruct (in_dec Nat.eq_dec j ids) as [Hd|Hd].
      * destruct (Hin j Hd) as (_ & ->). reflexivity.
      * destruct (is_design (Some m) j) eqn:Ed.
        -- exfalso. apply Hd. rewrite <- Hids. apply ids_in. auto.
        -- apply nth_repeat.
    + apply ids_nodup.
    + intros i Hi. rewrite repeat_length. now apply Hin.
  - f_equal. assert (Hids : ids = seq 0 n) by (unfold ids; try rewrite Em; apply ids_none).
    assert (Hl : n = List.length ids) by now rewrite Hids, seq_length.
    match goal with |- matvec_T n ?W v = _ => transitivity (matvec_T (List.length ids) W (gather v ids)) end.
    + f_equal; [exact Hl|]. rewrite Hids. symmetry. now apply gather_all.
    + rewrite matvec_T_entry. rewrite <- Hids. reflexivity.
Qed.
End Forward.
