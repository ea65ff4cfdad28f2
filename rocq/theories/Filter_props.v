(* C45, C46: the spatial (gaussian) filter. *)
From Verif Require Import Base Sums OC_model OC_spec Filter_model Filter_proofs.
Open Scope R_scope.
Open Scope list_scope.

(* a usable filter: positive radius, at least one design element *)
Definition usable (f : sfilter) : Prop :=
  0 < sf_radius f /\ exists i, (i < List.length (sf_centers f))%nat /\ is_design (sf_mask f) i = true.
Definition designs (f : sfilter) (i : nat) : Prop :=
  (i < List.length (sf_centers f))%nat /\ is_design (sf_mask f) i = true.
Definition n_el (f : sfilter) : nat := List.length (sf_centers f).

Lemma usable_ids f : usable f -> 0 < sf_radius f /\ design_ids (sf_mask f) (n_el f) <> [].
Proof.
  intros (Hr & i & Hi & Hd). split; [exact Hr|]. intros E. assert (In i (design_ids (sf_mask f) (n_el f))) by (apply ids_in; auto).
  rewrite E in H. easy.
Qed.

(* ---------- C45 ---------- *)
(* Every element: outside the design region the input; inside, a weighted mean
   of the design elements' densities whose weights are positive exactly within
   the radius and sum to one (so neither the result nor the weights depend on
   anything else). *)
Theorem C45_convex_combination : forall f rho, usable f -> List.length rho = n_el f ->
  exists f' out, sf_forward f rho = Ok (f', out) /\ List.length out = n_el f /\
    (forall e, (e < n_el f)%nat -> is_design (sf_mask f) e = false -> nth e out 0 = nth e rho 0) /\
    (forall e, designs f e -> exists w : nat -> R,
       (forall j, 0 <= w j) /\
       (forall j, (j < n_el f)%nat -> (0 < w j <->
          is_design (sf_mask f) j = true /\
          dist (nth j (sf_centers f) []) (nth e (sf_centers f) []) <= sf_radius f)) /\
       rsum (map w (seq 0 (n_el f))) = 1 /\
       nth e out 0 = rsum (map (fun j => w j * nth j rho 0) (seq 0 (n_el f)))).
Proof.
  intros f rho Hu Hlen. destruct (usable_ids f Hu) as (Hr & Hne).
  eexists. eexists. split; [now apply forward_eq|]. rewrite map_length, seq_length. split; [reflexivity|]. split.
  - intros e He Hd. rewrite nth_map_seq' by exact He. now rewrite Hd.
  - intros e (He & Hd). rewrite nth_map_seq' by exact He. rewrite Hd.
    set (ids := design_ids (sf_mask f) (n_el f)) in *.
    set (kf := kernel KGaussian (sf_radius f)).
    assert (Hin : In e ids) by (apply ids_in; auto).
    assert (Hk : forall d, 0 < kf d) by (intros; apply exp_pos).
    assert (Hr0 : 0 <= sf_radius f) by lra.
    exists (fun j => if is_design (sf_mask f) j then entry kf (sf_radius f) (sf_centers f) ids e j else 0).
    split; [|split; [|split]].
    + intros j. destruct (is_design _ j); [|lra]. now apply entry_nonneg.
    + intros j Hj. destruct (is_design _ j) eqn:Ed.
      * rewrite entry_pos by auto. intuition.
      * split; [lra|]. intros (E & _). discriminate.
    + rewrite <- ids_sum. now apply entry_sum.
    + unfold conv. fold ids. unfold n_el in *. fold ids.
      change (rsum (map (fun j => entry kf (sf_radius f) (sf_centers f) ids e j * nth j rho 0) ids) =
        rsum (map (fun j => (if is_design (sf_mask f) j then entry kf (sf_radius f) (sf_centers f) ids e j else 0) * nth j rho 0)
            (seq 0 (List.length (sf_centers f))))).
      unfold ids at 2. rewrite ids_sum. apply rs_ext. intros j _. fold ids. destruct (is_design _ j); lra.
Qed.
Print Assumptions C45_convex_combination.

(* bounds and constants *)
Theorem C45_bounds_and_constants : forall f rho lo hi, usable f -> List.length rho = n_el f ->
  (forall j, designs f j -> lo <= nth j rho 0 <= hi) ->
  exists f' out, sf_forward f rho = Ok (f', out) /\
    (forall e, designs f e -> lo <= nth e out 0 <= hi) /\
    (lo = hi -> forall e, (e < n_el f)%nat -> nth e out 0 = nth e rho 0).
Proof.
  intros f rho lo hi Hu Hlen Hb. destruct (C45_convex_combination f rho Hu Hlen) as (f' & out & Hf & Hl & Hnd & Hd).
  exists f', out. split; [exact Hf|].
  assert (G : forall e, designs f e -> lo <= nth e out 0 <= hi).
  { intros e He. destruct (Hd e He) as (w & Hw & Hp & H1 & ->). apply rs_convex; auto.
    intros j Hj Hwj. apply in_seq in Hj. apply Hb. split; [unfold n_el in *; lia|]. apply Hp; [lia|exact Hwj]. }
  split; [exact G|]. intros <- e He. destruct (is_design (sf_mask f) e) eqn:Ed.
  - assert (He' : designs f e) by (split; auto). specialize (G e He'). specialize (Hb e He'). lra.
  - now apply Hnd.
Qed.
Print Assumptions C45_bounds_and_constants.

(* errors: without a design element every call raises RuntimeError *)
Theorem C45_no_design_element_raises : forall f rho, sf_radius f <> 0 ->
  (forall i, (i < n_el f)%nat -> is_design (sf_mask f) i = false) -> sf_forward f rho = Err RuntimeError.
Proof.
  intros f rho Hr Hnd. unfold sf_forward. assert (Reqb (sf_radius f) 0 = false) as -> by now apply Reqb_false.
  unfold build_filter_matrix. assert (design_ids (sf_mask f) (List.length (sf_centers f)) = []) as ->; [|reflexivity].
  destruct (design_ids _ _) as [|i l] eqn:E; [reflexivity|]. assert (Hi : In i (i :: l)) by now left.
  rewrite <- E in Hi. apply ids_in in Hi. destruct Hi as (Hi & Hd). rewrite Hnd in Hd by exact Hi. discriminate.
Qed.
Print Assumptions C45_no_design_element_raises.

(* the filter is one the volume results of C19/C20 apply to *)
Lemma Forall2_nth_le l m : List.length l = List.length m -> (forall i, (i < List.length l)%nat -> nth i l 0 <= nth i m 0) -> Forall2 Rle l m.
Proof.
  revert m. induction l as [|x l IH]; intros [|y m] Hl H; simpl in *; try lia; constructor.
  - apply (H 0%nat). lia.
  - apply IH; [lia|]. intros i Hi. apply (H (S i)). lia.
Qed.
Lemma Forall2_len {A B} (P : A -> B -> Prop) l m : Forall2 P l m -> List.length l = List.length m.
Proof. induction 1; simpl; auto. Qed.
Lemma Forall2_nth_R l m i : Forall2 Rle l m -> nth i l 0 <= nth i m 0.
Proof. intros F; revert i; induction F; intros [|i]; simpl; auto; lra. Qed.

Theorem C45_monotone : forall f, usable f -> monotone_filter (sf_map f).
Proof.
  intros f Hu u v Huv. pose proof (Forall2_len _ _ _ Huv) as Hl. destruct (usable_ids f Hu) as (Hr & Hne).
  unfold sf_map. destruct (Nat.eq_dec (List.length u) (n_el f)) as [Hn|Hn].
  - rewrite (forward_eq f Hr Hne u Hn), (forward_eq f Hr Hne v) by (unfold n_el in Hn; lia).
    apply Forall2_nth_le; [now rewrite !map_length|]. rewrite map_length, seq_length. intros i Hi.
    rewrite !nth_map_seq' by exact Hi. destruct (is_design (sf_mask f) i) eqn:Ed.
    + unfold conv. apply rs_le. intros j Hj. apply Rmult_le_compat_l.
      * apply entry_nonneg; [intros; apply exp_pos|lra|]. apply ids_in. auto.
      * now apply Forall2_nth_R.
    + now apply Forall2_nth_R.
  - assert (Hbad : forall w, List.length w <> n_el f -> sf_forward f w = Err ValueError).
    { intros w Hw. unfold sf_forward. assert (Reqb (sf_radius f) 0 = false) as -> by (apply Reqb_false; lra).
      rewrite support_eq, build_ok; [|intros; apply exp_pos|lra|exact Hne]. cbn [bind].
      apply Nat.eqb_neq in Hw. unfold n_el in Hw. now rewrite Hw. }
    rewrite !Hbad by lia. exact Huv.
Qed.
Print Assumptions C45_monotone.

Example C45_instance :
  let mesh_p := [[0; 0]; [1; 0]; [0; 1]; [1; 1]] in
  let f := from_defaults 2 mesh_p [[0; 1; 2]; [1; 3; 2]]%nat (1 / 2) (Some [true; true]) in
  usable f /\ n_el f = 2%nat /\ sf_centers f = [[1 / 3; 1 / 3]; [2 / 3; 2 / 3]] /\
  dist [2 / 3; 2 / 3] [1 / 3; 1 / 3] <= sf_radius f.
Proof.
  simpl. split; [|split; [reflexivity|split]].
  - split; simpl; [lra|]. exists 0%nat. simpl. split; [lia|reflexivity].
  - unfold from_defaults, get_element_centers, center; simpl. repeat f_equal; lra.
  - unfold dist. simpl. replace (1 / 2) with (sqrt (1 / 4)).
    + apply sqrt_le_1; lra.
    + replace (1 / 4) with ((1 / 2) * (1 / 2)) by lra. apply sqrt_square. lra.
Qed.

(* ---------- C46 ---------- *)
(* After forward, gradient is its adjoint on the design region, zero outside,
   and keeps the sign of non-positive (and non-negative) sensitivities.  A
   later update_radius does not disturb this: gradient belongs to the forward
   map last evaluated. *)
Theorem C46_adjoint : forall f u v f' out, usable f ->
  List.length u = n_el f -> List.length v = n_el f -> sf_forward f u = Ok (f', out) ->
  forall r, exists g, sf_gradient (update_radius r f') v = Ok g /\ sf_gradient f' v = Ok g /\
    List.length g = n_el f /\
    rsum (map (fun i => nth i out 0 * nth i v 0) (filter (is_design (sf_mask f)) (seq 0 (n_el f)))) =
    rsum (map (fun j => nth j u 0 * nth j g 0) (filter (is_design (sf_mask f)) (seq 0 (n_el f)))) /\
    (forall j, (j < n_el f)%nat -> is_design (sf_mask f) j = false -> nth j g 0 = 0) /\
    ((forall i, designs f i -> nth i v 0 <= 0) -> forall j, nth j g 0 <= 0) /\
    ((forall i, designs f i -> 0 <= nth i v 0) -> forall j, 0 <= nth j g 0).
Proof.
  intros f u v f' out Hu Hlu Hlv Hf r. destruct (usable_ids f Hu) as (Hr & Hne).
  rewrite (forward_eq f Hr Hne u Hlu) in Hf. injection Hf as <- <-.
  eexists. split; [apply (gradient_eq f); auto|]. split; [apply (gradient_eq f); auto|].
  rewrite map_length, seq_length. split; [reflexivity|].
  set (ids := design_ids (sf_mask f) (List.length (sf_centers f))).
  assert (Hids : forall i, In i ids -> (i < n_el f)%nat /\ is_design (sf_mask f) i = true) by (intros i Hi; now apply ids_in in Hi).
  split; [|split; [|split]].
  - fold (design_ids (sf_mask f) (n_el f)). change (design_ids (sf_mask f) (n_el f)) with ids.
    rewrite (rs_ext _ (fun i => rsum (map (fun j => entry (kernel KGaussian (sf_radius f)) (sf_radius f) (sf_centers f) ids i j * nth j u 0 * nth i v 0) ids))).
    2:{ intros i Hi. destruct (Hids i Hi) as (Hi1 & Hi2). rewrite nth_map_seq' by exact Hi1. rewrite Hi2. unfold conv. fold ids.
        rewrite <- rs_scal_r. reflexivity. }
    rewrite rs_swap. apply rs_ext. intros j Hj. destruct (Hids j Hj) as (Hj1 & Hj2).
    rewrite nth_map_seq' by exact Hj1. rewrite Hj2. unfold conv_T. fold ids. rewrite <- rs_scal. apply rs_ext. intros i _. ring.
  - intros j Hj Hd. rewrite nth_map_seq' by exact Hj. now rewrite Hd.
  - intros Hv j. destruct (Nat.lt_ge_cases j (n_el f)) as [Hj|Hj].
    + rewrite nth_map_seq' by exact Hj. destruct (is_design _ j); [|lra]. unfold conv_T. apply rs_nonpos. intros i Hi.
      assert (0 <= entry (kernel KGaussian (sf_radius f)) (sf_radius f) (sf_centers f) ids i j) by (apply entry_nonneg; [intros; apply exp_pos|lra|exact Hi]).
      assert (nth i v 0 <= 0) by (apply Hv; now apply Hids). fold ids. nra.
    + rewrite nth_overflow; [lra|]. rewrite map_length, seq_length. exact Hj.
  - intros Hv j. destruct (Nat.lt_ge_cases j (n_el f)) as [Hj|Hj].
    + rewrite nth_map_seq' by exact Hj. destruct (is_design _ j); [|lra]. unfold conv_T. apply rs_nonneg. intros i Hi.
      assert (0 <= entry (kernel KGaussian (sf_radius f)) (sf_radius f) (sf_centers f) ids i j) by (apply entry_nonneg; [intros; apply exp_pos|lra|exact Hi]).
      assert (0 <= nth i v 0) by (apply Hv; now apply Hids). fold ids. nra.
    + rewrite nth_overflow; [lra|]. rewrite map_length, seq_length. exact Hj.
Qed.
Print Assumptions C46_adjoint.

(* a filter whose forward has never been called has no gradient *)
Theorem C46_gradient_needs_forward : forall dim p t r m v,
  sf_gradient (from_defaults dim p t r m) v = Err AttributeError.
Proof. reflexivity. Qed.
Print Assumptions C46_gradient_needs_forward.

(* the total sensitivity is not changed by the filter's gradient only through
   constants: filtering the constant 1 and pairing gives the sum of v *)
Theorem C46_total_preserved : forall f u v f' out g, usable f ->
  List.length u = n_el f -> List.length v = n_el f -> (forall i, (i < n_el f)%nat -> nth i u 0 = 1) ->
  sf_forward f u = Ok (f', out) -> sf_gradient f' v = Ok g ->
  rsum (map (fun i => nth i g 0) (filter (is_design (sf_mask f)) (seq 0 (n_el f)))) =
  rsum (map (fun i => nth i v 0) (filter (is_design (sf_mask f)) (seq 0 (n_el f)))).
Proof.
  intros f u v f' out g Hu Hlu Hlv Hone Hf Hg.
  destruct (C46_adjoint f u v f' out Hu Hlu Hlv Hf 1) as (g' & _ & Hg' & _ & Had & _).
  rewrite Hg in Hg'. injection Hg' as <-.
  destruct (C45_bounds_and_constants f u 1 1 Hu Hlu) as (f2 & out2 & Hf2 & _ & Hc).
  { intros j (Hj & _). rewrite Hone by exact Hj. lra. }
  rewrite Hf in Hf2. injection Hf2 as <- <-. specialize (Hc eq_refl).
  transitivity (rsum (map (fun j => nth j u 0 * nth j g 0) (filter (is_design (sf_mask f)) (seq 0 (n_el f))))).
  - apply rs_ext. intros j Hj. apply filter_In in Hj. destruct Hj as (Hj & _). apply in_seq in Hj. rewrite Hone by lia. lra.
  - rewrite <- Had. apply rs_ext. intros j Hj. apply filter_In in Hj. destruct Hj as (Hj & _). apply in_seq in Hj.
    rewrite Hc, Hone by lia. lra.
Qed.
Print Assumptions C46_total_preserved.

(* The weights are those of the documented gaussian: the density of element j
   counts in proportion to exp(-(1/2)(d/sigma)^2) with sigma = radius / 3, d the
   distance of the centroids, among the design elements within the radius. *)
Definition gaussian (r d : R) : R := exp (- (9 / 2) * (d / r) ^ 2).
Definition in_reach (f : sfilter) (e j : nat) : bool :=
  is_design (sf_mask f) j && Rleb (dist (nth j (sf_centers f) []) (nth e (sf_centers f) [])) (sf_radius f).
Definition gauss_at (f : sfilter) (e j : nat) : R :=
  gaussian (sf_radius f) (dist (nth j (sf_centers f) []) (nth e (sf_centers f) [])).
Theorem C45_gaussian_weights : forall f rho f' out e, usable f -> List.length rho = n_el f ->
  sf_forward f rho = Ok (f', out) -> designs f e ->
  nth e out 0 =
    rsum (map (fun j => gauss_at f e j * nth j rho 0) (filter (in_reach f e) (seq 0 (n_el f)))) /
    rsum (map (gauss_at f e) (filter (in_reach f e) (seq 0 (n_el f)))).
Proof.
  intros f rho f' out e Hu Hlen Hf (He & Hd). destruct (usable_ids f Hu) as (Hr & Hne).
  rewrite (forward_eq f Hr Hne rho Hlen) in Hf. injection Hf as _ <-.
  rewrite nth_map_seq' by exact He. rewrite Hd.
  assert (Hw : forall j, (if is_design (sf_mask f) j then wraw (kernel KGaussian (sf_radius f)) (sf_radius f) (sf_centers f) e j else 0)
     = if in_reach f e j then gauss_at f e j else 0).
  { intros j. unfold in_reach, wraw. destruct (is_design (sf_mask f) j); [|reflexivity]. cbn [andb].
    destruct (Rleb _ _); [|reflexivity]. unfold gauss_at, gaussian, kernel. f_equal. field. lra. }
  assert (Hfil : forall g : nat -> R, rsum (map g (filter (in_reach f e) (seq 0 (n_el f)))) =
     rsum (map (fun j => if in_reach f e j then g j else 0) (seq 0 (n_el f)))).
  { intros g. generalize (seq 0 (n_el f)). intros l. clear. induction l as [|a l IH]; [reflexivity|].
    cbn [filter map]. destruct (in_reach f e a); cbn [map]; cbn [rsum fold_right]; unfold rsum in *; cbn [fold_right]; rewrite IH; lra. }
  rewrite !Hfil. unfold conv, entry, rowsum. rewrite ids_sum.
  rewrite (ids_sum _ _ (wraw _ _ _ e)).
  rewrite (rs_ext (fun i => if is_design (sf_mask f) i then wraw (kernel KGaussian (sf_radius f)) (sf_radius f) (sf_centers f) e i else 0)
     (fun j => if in_reach f e j then gauss_at f e j else 0)) by (intros; apply Hw).
  unfold Rdiv. rewrite <- rs_scal_r. apply rs_ext. intros j _.
  specialize (Hw j). fold (n_el f) in *.
  destruct (is_design (sf_mask f) j).
  - rewrite Hw. destruct (in_reach f e j); lra.
  - destruct (in_reach f e j); [|lra]. rewrite <- Hw. lra.
Qed.
Print Assumptions C45_gaussian_weights.

(* Whatever was called before, forward uses the radius set last (a stale weight
   matrix is never reused), so it answers as a filter freshly built with it. *)
Inductive fop := SetRadius (r : R) | Forward (rho : list R).
Definition fstep (f : sfilter) (o : fop) : sfilter :=
  match o with
  | SetRadius r => update_radius r f
  | Forward rho => match sf_forward f rho with Ok (f', _) => f' | Err _ => f end
  end.
Definition last_radius (r0 : R) (ops : list fop) : R :=
  fold_left (fun r o => match o with SetRadius r' => r' | _ => r end) ops r0.
Theorem C45_radius_in_force : forall dim p t m ops r0 rho,
  let answer f := match sf_forward f rho with Ok (_, out) => Ok out | Err e => Err e end in
  answer (fold_left fstep ops (from_defaults dim p t r0 m)) =
  answer (from_defaults dim p t (last_radius r0 ops) m).
Proof.
  intros dim p t m ops r0 rho answer.
  assert (Hgen : forall ops f, exists W, fold_left fstep ops f = mkSF (sf_centers f) (sf_mask f) (last_radius (sf_radius f) ops) W).
  { clear. unfold last_radius. induction ops as [|o ops IH]; intros f; cbn [fold_left].
    - exists (sf_W f). now destruct f.
    - destruct (IH (fstep f o)) as (W & ->). exists W. destruct o as [r|rho]; cbn [fstep].
      + reflexivity.
      + destruct (sf_forward f rho) as [[f' out]|x] eqn:E; [|reflexivity].
        assert (sf_centers f' = sf_centers f /\ sf_mask f' = sf_mask f /\ sf_radius f' = sf_radius f) as (-> & -> & ->); [|reflexivity].
        unfold sf_forward in E. destruct (Reqb _ 0); [discriminate|]. destruct (build_filter_matrix _ _ _ _) as [W'|]; [|discriminate].
        cbn [bind] in E. destruct (negb _); [discriminate|]. injection E as <- _. auto. }
  destruct (Hgen ops (from_defaults dim p t r0 m)) as (W & ->). reflexivity.
Qed.
Print Assumptions C45_radius_in_force.

(* the three weight functions: positive at distance 0, never negative, falling with
   the distance; the linear and quadratic ones vanish from the radius on and the
   quadratic one is (r-d)(r+d)/r^2 inside *)
Theorem C45_kernels : forall k r d d', 0 < r -> 0 <= d <= d' ->
  0 < kernel k r 0 /\ 0 <= kernel k r d' <= kernel k r d /\
  (k <> KGaussian -> r <= d -> kernel k r d = 0) /\
  (k = KLinear -> d <= r -> kernel k r d = r - d) /\
  (k = KQuadratic -> d <= r -> kernel k r d * (r * r) = (r - d) * (r + d)).
Proof.
  intros k r d d' Hr Hd.
  assert (Q : forall x y, 0 <= x <= y -> x / r * (x / r) <= y / r * (y / r)).
  { intros x y Hxy. assert (0 < / r) by now apply Rinv_0_lt_compat. unfold Rdiv. assert (x * / r <= y * / r) by nra. assert (0 <= x * / r) by nra. nra. }
  destruct k; cbn [kernel].
  - split; [unfold Rmax; destruct Rle_dec; lra|]. split; [unfold Rmax; repeat destruct Rle_dec; lra|].
    split; [intros _ ?; unfold Rmax; destruct Rle_dec; lra|]. split; [intros _ ?; unfold Rmax; destruct Rle_dec; lra|discriminate].
  - assert (Hq : forall x, Rleb r x = true -> r <= x) by (intros x; apply Rleb_true).
    assert (Hn : forall x, Rleb r x = false -> x < r) by (intros x; apply Rleb_false).
    assert (One : r / r * (r / r) = 1) by (field; lra).
    split; [destruct (Rleb r 0) eqn:E; [apply Hq in E; lra|]; replace (0 / r) with 0 by (field; lra); lra|].
    split; [|split; [|split; [discriminate|]]].
    + destruct (Rleb r d') eqn:E'; destruct (Rleb r d) eqn:E; try (apply Hq in E); try (apply Hn in E); try (apply Hq in E'); try (apply Hn in E').
      * lra.
      * pose proof (Q d r ltac:(lra)). lra.
      * lra.
      * pose proof (Q d d' ltac:(lra)). pose proof (Q d' r ltac:(lra)). lra.
    + intros _ H. destruct (Rleb r d) eqn:E; [reflexivity|]. apply Hn in E. lra.
    + intros _ H. destruct (Rleb r d) eqn:E; [apply Hq in E; replace d with r by lra; ring|]. field. lra.
  - split; [apply exp_pos|]. split; [split; [apply Rlt_le, exp_pos|]|split; [congruence|split; discriminate]].
    assert (H3 : 0 < r / 3) by lra. assert (0 < / (r / 3)) by now apply Rinv_0_lt_compat.
    assert (d / (r / 3) * (d / (r / 3)) <= d' / (r / 3) * (d' / (r / 3))).
    { unfold Rdiv at 1 3 5 7. assert (d * / (r / 3) <= d' * / (r / 3)) by nra. assert (0 <= d * / (r / 3)) by nra. unfold Rdiv. nra. }
    destruct (Rle_lt_or_eq_dec _ _ H0) as [L|L]; [left; apply exp_increasing; lra|right; rewrite L; reflexivity].
Qed.
Print Assumptions C45_kernels.

(* a vector of the wrong length is refused *)
Theorem C46_gradient_wrong_length : forall f v W, sf_W f = Some W -> List.length v <> n_el f -> sf_gradient f v = Err ValueError.
Proof. intros f v W HW Hl. unfold sf_gradient. rewrite HW. change (List.length (sf_centers f)) with (n_el f). destruct (Nat.eqb_spec (List.length v) (n_el f)); [congruence|reflexivity]. Qed.
Print Assumptions C46_gradient_wrong_length.
