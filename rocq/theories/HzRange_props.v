(* C101: the range of the nodal Helmholtz filter, the default filter. *)
From Verif Require Import Base Sums LinAlg Filter_model Helmholtz_model Helmholtz_props HzRange_spec.
Open Scope R_scope.
Open Scope list_scope.

(* a smallest value among the first n *)
Lemma min_at n (x : nat -> R) : (0 < n)%nat -> exists k, (k < n)%nat /\ forall i, (i < n)%nat -> x k <= x i.
Proof.
  induction n as [|n IH]; [lia|]. intros _. destruct n as [|n]; [exists 0%nat; split; [lia|]; intros i Hi; replace i with 0%nat by lia; lra|].
  destruct IH as (k & Hk & H); [lia|]. destruct (Rle_dec (x k) (x (S n))) as [L|L].
  - exists k. split; [lia|]. intros i Hi. destruct (Nat.eq_dec i (S n)) as [->|]; [exact L|apply H; lia].
  - exists (S n). split; [lia|]. intros i Hi. destruct (Nat.eq_dec i (S n)) as [->|]; [lra|].
    specialize (H i ltac:(lia)). lra.
Qed.
Lemma mv_const m A c i : mv m A (fun _ => c) i = c * mv m A (fun _ => 1) i.
Proof. unfold mv. rewrite <- rs_scal. apply rs_ext. intros j _. ring. Qed.
(* discrete maximum principle: the solution lies above lo if the data does *)
Lemma solves_above m r D bc y x lo : fem_matrices m -> shape_functions m -> coarse m r ->
  (forall i, (i < m_nn m)%nat -> D i = true -> lo <= bc) -> (forall i, (i < m_nn m)%nat -> lo <= y i) ->
  solves m r D bc (mv m (m_M m) y) x -> forall i, (i < m_nn m)%nat -> lo <= x i.
Proof.
  intros (_ & _ & HK) (HM & HMd) HA Hbc Hy Hx i Hi.
  destruct (min_at (m_nn m) x ltac:(lia)) as (k & Hk & Hmin).
  enough (lo <= x k) by (specialize (Hmin i Hi); lra). clear i Hi.
  specialize (Hx k Hk). destruct (D k) eqn:ED; [rewrite Hx; eauto|].
  assert (E1 : mv m (A_of m r) (fun j => x j - lo) k = mv m (m_M m) (fun j => y j - lo) k).
  { rewrite !mv_minus, Hx. rewrite (mv_const m (A_of m r)), (mv_const m (m_M m)), mv_A, HK by exact Hk. ring. }
  assert (P : 0 <= mv m (m_M m) (fun j => y j - lo) k).
  { unfold mv. apply rs_nonneg. intros j Hj. apply in_seq in Hj. apply Rmult_le_pos; [apply HM|]. specialize (Hy j ltac:(lia)). lra. }
  assert (S1 : 0 < mv m (A_of m r) (fun _ => 1) k).
  { rewrite mv_A, HK by exact Hk. rewrite Rmult_0_r, Rplus_0_r. unfold mv. apply (rs_pos _ _ k); [|apply in_seq; lia|].
    - intros j _. rewrite Rmult_1_r. apply HM.
    - rewrite Rmult_1_r. now apply HMd. }
  assert (Q : mv m (A_of m r) (fun j => x j - lo) k <= mv m (A_of m r) (fun _ => x k - lo) k).
  { unfold mv. apply rs_le. intros j Hj. apply in_seq in Hj. destruct (Nat.eq_dec j k) as [->|Hn]; [lra|].
    pose proof (HA k j Hk ltac:(lia) ltac:(lia)) as Ha. unfold A_of. specialize (Hmin j ltac:(lia)). nra. }
  rewrite mv_const in Q. rewrite E1 in Q.
  assert (0 <= x k - lo); [|lra]. apply (Rmult_le_reg_r (mv m (A_of m r) (fun _ => 1) k)); lra.
Qed.
Lemma mv_opp m A x i : mv m A (fun j => - x j) i = - mv m A x i.
Proof. transitivity (-1 * mv m A x i); [|ring]. unfold mv. rewrite <- rs_scal. apply rs_ext. intros; ring. Qed.
Lemma solves_opp m r D bc y x : solves m r D bc (mv m (m_M m) y) x -> solves m r D (- bc) (mv m (m_M m) (fun j => - y j)) (fun j => - x j).
Proof. intros H i Hi. specialize (H i Hi). destruct (D i); [now rewrite H|]. rewrite !mv_opp. now rewrite H. Qed.
Lemma solves_below m r D bc y x hi : fem_matrices m -> shape_functions m -> coarse m r ->
  (forall i, (i < m_nn m)%nat -> D i = true -> bc <= hi) -> (forall i, (i < m_nn m)%nat -> y i <= hi) ->
  solves m r D bc (mv m (m_M m) y) x -> forall i, (i < m_nn m)%nat -> x i <= hi.
Proof.
  intros Hf Hs Hc Hb Hy Hx i Hi. enough (- hi <= - x i) by lra.
  refine (solves_above m r D (- bc) (fun j => - y j) (fun j => - x j) (- hi) Hf Hs Hc _ _ (solves_opp _ _ _ _ _ _ Hx) i Hi).
  - intros j Hj Hd. specialize (Hb j Hj Hd). lra.
  - intros j Hj. specialize (Hy j Hj). lra.
Qed.
Lemma fixed_node_element m mask i : fixed_node m mask i = true -> exists e, fixed_element m mask e /\ touches m e i = true.
Proof.
  unfold fixed_node. intros H. apply existsb_exists in H. destruct H as (e & He & H). apply andb_prop in H. destruct H as (H1 & H2).
  apply in_seq in He. exists e. split; [split; [lia|]|exact H2]. now destruct (is_design mask e).
Qed.

(* With the radius large enough for the elements, filtered densities stay within any
   range that has the densities of the design elements and, if some element is fixed, 1. *)
Theorem C101_in_range : forall m mask r rho out lo hi, mesh_ok m -> fem_matrices m -> shape_functions m -> coarse m r ->
  (forall e, (e < n_els m)%nat -> is_design mask e = true -> lo <= rho e <= hi) ->
  (forall e, fixed_element m mask e -> lo <= 1 <= hi) ->
  hz_forward m mask r rho out -> forall e, (e < n_els m)%nat -> lo <= out e <= hi.
Proof.
  intros m mask r rho out lo hi Hm Hf Hs Hc Hd H1 (x & Hx & Ho) e He.
  assert (Hy : forall i, (i < m_nn m)%nat -> lo <= element_to_node m mask 1 rho i <= hi).
  { intros i Hi. apply (C47_averaging_in_range m mask 1 rho lo hi i Hm Hi); [intros; now apply Hd|]. intros e' He' _ E. apply (H1 e'). now split. }
  assert (Hb : forall i, (i < m_nn m)%nat -> fixed_node m mask i = true -> lo <= 1 <= hi).
  { intros i _ Hi. destruct (fixed_node_element _ _ _ Hi) as (e' & Hfe & _). now apply (H1 e'). }
  rewrite Ho by exact He. apply C47_node_mean_in_range; [exact Hm|exact He|]. intros i Hi. split.
  - refine (solves_above m r _ 1 _ x lo Hf Hs Hc _ _ Hx i Hi); [intros j Hj Hd'; now apply (Hb j)|intros j Hj; now apply Hy].
  - refine (solves_below m r _ 1 _ x hi Hf Hs Hc _ _ Hx i Hi); [intros j Hj Hd'; now apply (Hb j)|intros j Hj; now apply Hy].
Qed.
Print Assumptions C101_in_range.

(* Never positive; with the radius large enough, sensitivities between -L and 0 come out
   in that range, and sensitivities that are nowhere negative on the design elements are
   all replaced by 0. *)
Theorem C101_gradient_range : forall m mask r v g, hz_gradient m mask r v g ->
  (forall e, (e < n_els m)%nat -> g e <= 0) /\
  (mesh_ok m -> fem_matrices m -> shape_functions m -> coarse m r ->
   (forall L, 0 <= L -> (forall e, (e < n_els m)%nat -> is_design mask e = true -> - L <= v e) ->
      forall e, (e < n_els m)%nat -> - L <= g e) /\
   ((forall e, (e < n_els m)%nat -> is_design mask e = true -> 0 <= v e) -> forall e, (e < n_els m)%nat -> g e = 0)).
Proof.
  intros m mask r v g (x & Hx & Hg). assert (Hn : forall e, (e < n_els m)%nat -> g e <= 0) by (intros e He; rewrite Hg by exact He; apply Rmin_r).
  split; [exact Hn|]. intros Hm Hf Hs Hc.
  assert (Lo : forall L, 0 <= L -> (forall e, (e < n_els m)%nat -> is_design mask e = true -> - L <= v e) ->
      forall e, (e < n_els m)%nat -> - L <= g e).
  { intros L HL Hv e He.
    set (U := fold_right Rmax 0 (map v (seq 0 (n_els m)))).
    assert (HU : forall e', (e' < n_els m)%nat -> v e' <= U).
    { intros e' He'. unfold U. assert (Hin : In (v e') (map v (seq 0 (n_els m)))) by (apply in_map, in_seq; lia).
      revert Hin. generalize (map v (seq 0 (n_els m))). intros l. induction l as [|a l IH]; [easy|]. intros [->|Hin]; cbn.
      - apply Rmax_l.
      - eapply Rle_trans; [apply IH, Hin|apply Rmax_r]. }
    assert (HU0 : 0 <= U) by (unfold U; generalize (map v (seq 0 (n_els m))); intros l; induction l as [|a l IH]; cbn; [lra|eapply Rle_trans; [exact IH|apply Rmax_r]]).
    assert (Hy : forall i, (i < m_nn m)%nat -> - L <= element_to_node m mask 0 v i).
    { intros i Hi. refine (proj1 (C47_averaging_in_range m mask 0 v (- L) U i Hm Hi _ _)).
      - intros e' He' _ E. split; [now apply Hv|now apply HU].
      - intros. lra. }
    assert (Hxl : forall i, (i < m_nn m)%nat -> - L <= x i).
    { refine (solves_above m r _ 0 _ x (- L) Hf Hs Hc _ Hy Hx). discriminate. }
    rewrite Hg by exact He. apply Rmin_glb; [|lra].
    set (X := fold_right Rmax 0 (map x (seq 0 (m_nn m)))).
    refine (proj1 (C47_node_mean_in_range m x (- L) X e Hm He _)). intros i Hi. split; [now apply Hxl|].
    unfold X. assert (Hin : In (x i) (map x (seq 0 (m_nn m)))) by (apply in_map, in_seq; lia).
    revert Hin. generalize (map x (seq 0 (m_nn m))). intros l. induction l as [|a l IH]; [easy|]. intros [->|Hin]; cbn.
    - apply Rmax_l.
    - eapply Rle_trans; [apply IH, Hin|apply Rmax_r]. }
  split; [exact Lo|]. intros Hv e He. specialize (Hn e He).
  specialize (Lo 0 (Rle_refl 0)). rewrite Ropp_0 in Lo. specialize (Lo Hv e He). lra.
Qed.
Print Assumptions C101_gradient_range.

(* the filter returns something for every density: the systems are solvable *)
Definition held (m : mesh) (r : R) (D : nat -> bool) (i j : nat) : R :=
  if D i then (if Nat.eqb i j then 1 else 0) else A_of m r i j.
Lemma held_row m r D x i : (i < m_nn m)%nat -> lmv (m_nn m) (held m r D) x i = if D i then x i else mv m (A_of m r) x i.
Proof.
  intros Hi. unfold lmv, held, mv. destruct (D i); [|reflexivity].
  rewrite <- (rs_single_nat (m_nn m) i x Hi). apply rs_ext. intros j _. destruct (Nat.eqb i j) eqn:E.
  - apply Nat.eqb_eq in E. subst. rewrite Nat.eqb_refl. ring.
  - rewrite Nat.eqb_sym, E. ring.
Qed.
Lemma solvable m r D bc b : fem_matrices m -> solves m r D bc b (gauss (m_nn m) (held m r D) (fun i => if D i then bc else b i)).
Proof.
  intros Hf i Hi.
  assert (Inj : injective_mat (m_nn m) (held m r D)).
  { intros u Hu j Hj.
    apply (solves_unique m r D 0 (fun _ => 0) u (fun _ => 0) Hf); [| |exact Hj].
    - intros k Hk. specialize (Hu k Hk). rewrite held_row in Hu by exact Hk. destruct (D k); exact Hu.
    - intros k Hk. destruct (D k); [reflexivity|]. unfold mv. apply rs_zero. intros; ring. }
  pose proof (gauss_solves _ _ Inj (fun i => if D i then bc else b i) i Hi) as E. rewrite held_row in E by exact Hi.
  destruct (D i); exact E.
Qed.

(* ---------- a row of three square elements ---------- *)
Lemma row_mesh_ok : mesh_ok row_mesh.
Proof.
  split.
  - intros e He. unfold n_els in He. cbn in He. cbn [m_vol row_mesh].
    destruct e as [|[|[|e]]]; [| | |lia]; (split; [lra|split; [discriminate|repeat constructor; cbn; lia]]).
  - intros i Hi. cbn in Hi. destruct i as [|[|[|[|[|[|[|[|i]]]]]]]]; try lia;
    [exists 0%nat|exists 0%nat|exists 0%nat|exists 0%nat|exists 1%nat|exists 1%nat|exists 2%nat|exists 2%nat];
    (split; [unfold n_els; cbn; lia|reflexivity]).
Qed.
Definition rodq (p : nat -> R) : R :=
  (p 0%nat * p 0%nat + p 1%nat * p 1%nat + (p 0%nat + p 1%nat) * (p 0%nat + p 1%nat)) +
  (p 1%nat * p 1%nat + p 2%nat * p 2%nat + (p 1%nat + p 2%nat) * (p 1%nat + p 2%nat)) +
  (p 2%nat * p 2%nat + p 3%nat * p 3%nat + (p 2%nat + p 3%nat) * (p 2%nat + p 3%nat)).
Definition rodk (p : nat -> R) : R :=
  (p 0%nat - p 1%nat) * (p 0%nat - p 1%nat) + (p 1%nat - p 2%nat) * (p 1%nat - p 2%nat) + (p 2%nat - p 3%nat) * (p 2%nat - p 3%nat).
Definition psum (x : nat -> R) (k : nat) : R := x (2 * k)%nat + x (2 * k + 1)%nat.
Definition pdif (x : nat -> R) (k : nat) : R := x (2 * k)%nat - x (2 * k + 1)%nat.
Lemma row_quad_M x : quad row_mesh (m_M row_mesh) x = 1/24 * rodq (psum x) + 1/72 * rodq (pdif x).
Proof. unfold quad, mv, rodq, psum, pdif, rsum. cbn -[Rmult Rplus Rminus Rdiv IZR]. unfold rod_M, one_M. cbn -[Rmult Rplus Rminus Rdiv IZR]. field. Qed.
Lemma row_quad_K x : quad row_mesh (m_K row_mesh) x = 1/4 * rodk (psum x) + 1/12 * rodk (pdif x) + 1/6 * rodq (pdif x).
Proof. unfold quad, mv, rodq, rodk, psum, pdif, rsum. cbn -[Rmult Rplus Rminus Rdiv IZR]. unfold rod_M, one_M, rod_K, one_K. cbn -[Rmult Rplus Rminus Rdiv IZR]. field. Qed.
Lemma sq_nonneg a : 0 <= a * a.
Proof. pose proof (Rle_0_sqr a). now unfold Rsqr in *. Qed.
Lemma rodq_ge p : p 0%nat * p 0%nat + p 1%nat * p 1%nat + p 2%nat * p 2%nat + p 3%nat * p 3%nat <= rodq p.
Proof.
  unfold rodq. pose proof (sq_nonneg (p 0%nat + p 1%nat)). pose proof (sq_nonneg (p 1%nat + p 2%nat)). pose proof (sq_nonneg (p 2%nat + p 3%nat)).
  pose proof (sq_nonneg (p 1%nat)). pose proof (sq_nonneg (p 2%nat)). lra.
Qed.
Lemma row_mesh_fem : fem_matrices row_mesh.
Proof.
  split; [|split].
  - intros x (i & Hi & Hx). rewrite row_quad_M. pose proof (rodq_ge (psum x)) as P. pose proof (rodq_ge (pdif x)) as Q.
    assert (Hs : 0 < x i * x i) by (pose proof (Rlt_0_sqr (x i) Hx); now unfold Rsqr in *).
    set (S := x 0%nat * x 0%nat + x 1%nat * x 1%nat + x 2%nat * x 2%nat + x 3%nat * x 3%nat + x 4%nat * x 4%nat + x 5%nat * x 5%nat + x 6%nat * x 6%nat + x 7%nat * x 7%nat).
    assert (HS : 0 < S).
    { unfold S. pose proof (sq_nonneg (x 0%nat)). pose proof (sq_nonneg (x 1%nat)). pose proof (sq_nonneg (x 2%nat)). pose proof (sq_nonneg (x 3%nat)).
      pose proof (sq_nonneg (x 4%nat)). pose proof (sq_nonneg (x 5%nat)). pose proof (sq_nonneg (x 6%nat)). pose proof (sq_nonneg (x 7%nat)).
      cbn in Hi. destruct i as [|[|[|[|[|[|[|[|i]]]]]]]]; try lia; lra. }
    assert (E : psum x 0 * psum x 0 + psum x 1 * psum x 1 + psum x 2 * psum x 2 + psum x 3 * psum x 3 +
                (pdif x 0 * pdif x 0 + pdif x 1 * pdif x 1 + pdif x 2 * pdif x 2 + pdif x 3 * pdif x 3) = 2 * S).
    { unfold S, psum, pdif. cbn. ring. }
    assert (0 <= rodq (psum x)).
    { pose proof (sq_nonneg (psum x 0)). pose proof (sq_nonneg (psum x 1)). pose proof (sq_nonneg (psum x 2)). pose proof (sq_nonneg (psum x 3)). lra. }
    lra.
  - intros x. rewrite row_quad_K. pose proof (rodq_ge (pdif x)) as Q. unfold rodk.
    pose proof (sq_nonneg (psum x 0 - psum x 1)). pose proof (sq_nonneg (psum x 1 - psum x 2)). pose proof (sq_nonneg (psum x 2 - psum x 3)).
    pose proof (sq_nonneg (pdif x 0 - pdif x 1)). pose proof (sq_nonneg (pdif x 1 - pdif x 2)). pose proof (sq_nonneg (pdif x 2 - pdif x 3)).
    pose proof (sq_nonneg (pdif x 0)). pose proof (sq_nonneg (pdif x 1)). pose proof (sq_nonneg (pdif x 2)). pose proof (sq_nonneg (pdif x 3)). lra.
  - intros i Hi. cbn in Hi. unfold mv, rsum. destruct i as [|[|[|[|[|[|[|[|i]]]]]]]]; try lia; cbn -[Rmult Rplus Rminus Rdiv IZR]; unfold rod_M, one_M, rod_K, one_K; cbn -[Rmult Rplus Rminus Rdiv IZR]; field.
Qed.
Lemma rod_M_nonneg k l : 0 <= rod_M k l.
Proof. unfold rod_M. destruct k as [|[|[|[|[|k]]]]], l as [|[|[|[|[|l]]]]]; cbn; lra. Qed.
Lemma one_M_nonneg k l : 0 <= one_M k l.
Proof. unfold one_M. destruct k as [|[|[|k]]], l as [|[|[|l]]]; cbn; lra. Qed.
Lemma row_mesh_shapes : shape_functions row_mesh.
Proof.
  split; [intros i j; cbn [m_M row_mesh]; apply Rmult_le_pos; [apply rod_M_nonneg|apply one_M_nonneg]|].
  intros i Hi. cbn in Hi. destruct i as [|[|[|[|[|[|[|[|i]]]]]]]]; try lia; cbn -[Rmult Rplus Rminus Rdiv IZR]; unfold rod_M, one_M; cbn -[Rmult Rplus Rminus Rdiv IZR]; lra.
Qed.
(* on unit squares "large enough" is 1/sqrt 3 *)
Theorem C101_row_coarse : forall r, coarse row_mesh r <-> 1/3 <= r * r.
Proof.
  intros r. split.
  - intros H. specialize (H 0%nat 2%nat ltac:(cbn; lia) ltac:(cbn; lia) ltac:(lia)). cbn -[Rmult Rplus Rminus Rdiv IZR] in H. unfold rod_M, one_M, rod_K, one_K in H. cbn -[Rmult Rplus Rminus Rdiv IZR] in H. lra.
  - intros Hr i j Hi Hj Hne. cbn in Hi, Hj.
    destruct i as [|[|[|[|[|[|[|[|i]]]]]]]]; try lia; destruct j as [|[|[|[|[|[|[|[|j]]]]]]]]; try lia;
      cbn -[Rmult Rplus Rminus Rdiv IZR]; unfold rod_M, one_M, rod_K, one_K; cbn -[Rmult Rplus Rminus Rdiv IZR]; lra.
Qed.
Print Assumptions C101_row_coarse.

(* the nodal averages of the row with both design elements at density d *)
Definition row_d (d : R) (e : nat) : R := d.
Lemma row_avg d i : (i < 8)%nat -> element_to_node row_mesh row_mask 1 (row_d d) i = nth i [1; 1; (1 + d) / 2; (1 + d) / 2; d; d; d; d] 0.
Proof.
  intros Hi. unfold element_to_node, touches, n_els.
  destruct i as [|[|[|[|[|[|[|[|i]]]]]]]]; try lia; cbn -[Reqb Rmult Rplus Rminus Rdiv IZR];
    match goal with |- context [Reqb ?a 0] => assert (Reqb a 0 = false) as -> by (apply Reqb_false; lra) end; unfold row_d; field.
Qed.
(* The row with both design elements at density d: what the filter gives in the third
   element, which is below d exactly when d < 1 and the radius is below 1/sqrt 12. *)
Theorem C101_row_value : forall r d,
  (exists out, hz_forward row_mesh row_mask r (row_d d) out) /\
  forall out, hz_forward row_mesh row_mask r (row_d d) out ->
    let a := r * r in
    out 2%nat = d + (1 - d) * (2 * a - 1/6) * (2 * a + 1/6) / (4 * (2 * (1/3 + a) * (1/3 + a) - (1/6 - a) * (1/6 - a))) /\
    (d < 1 -> (out 2%nat < d <-> 12 * (r * r) < 1)).
Proof.
  intros r d. split.
  { exists (node_to_element row_mesh (gauss 8 (held row_mesh r (fixed_node row_mesh row_mask))
        (fun i => if fixed_node row_mesh row_mask i then 1 else mv row_mesh (m_M row_mesh) (element_to_node row_mesh row_mask 1 (row_d d)) i))).
    eexists. split; [|reflexivity]. exact (solvable row_mesh r (fixed_node row_mesh row_mask) 1 _ row_mesh_fem). }
  intros out (x & Hx & Ho) a.
  pose proof (Hx 0%nat ltac:(cbn; lia)) as E0. pose proof (Hx 1%nat ltac:(cbn; lia)) as E1. pose proof (Hx 2%nat ltac:(cbn; lia)) as E2. pose proof (Hx 3%nat ltac:(cbn; lia)) as E3.
  pose proof (Hx 4%nat ltac:(cbn; lia)) as E4. pose proof (Hx 5%nat ltac:(cbn; lia)) as E5. pose proof (Hx 6%nat ltac:(cbn; lia)) as E6. pose proof (Hx 7%nat ltac:(cbn; lia)) as E7. clear Hx.
  change (x 0%nat = 1) in E0. change (x 1%nat = 1) in E1. change (x 2%nat = 1) in E2. change (x 3%nat = 1) in E3.
  assert (B : forall i, (i < 8)%nat -> mv row_mesh (m_M row_mesh) (element_to_node row_mesh row_mask 1 (row_d d)) i =
     mv row_mesh (m_M row_mesh) (fun j => nth j [1; 1; (1 + d) / 2; (1 + d) / 2; d; d; d; d] 0) i).
  { intros i _. unfold mv. apply rs_ext. intros j Hj. apply in_seq in Hj. cbn [m_nn row_mesh] in Hj. rewrite row_avg by lia. reflexivity. }
  change (mv row_mesh (A_of row_mesh r) x 4 = mv row_mesh (m_M row_mesh) (element_to_node row_mesh row_mask 1 (row_d d)) 4) in E4.
  change (mv row_mesh (A_of row_mesh r) x 5 = mv row_mesh (m_M row_mesh) (element_to_node row_mesh row_mask 1 (row_d d)) 5) in E5.
  change (mv row_mesh (A_of row_mesh r) x 6 = mv row_mesh (m_M row_mesh) (element_to_node row_mesh row_mask 1 (row_d d)) 6) in E6.
  change (mv row_mesh (A_of row_mesh r) x 7 = mv row_mesh (m_M row_mesh) (element_to_node row_mesh row_mask 1 (row_d d)) 7) in E7.
  rewrite B in E4, E5, E6, E7 by lia. clear B.
  unfold mv, A_of, rsum in E4, E5, E6, E7. cbn -[Rmult Rplus Rminus Rdiv IZR] in E4, E5, E6, E7.
  unfold rod_M, one_M, rod_K, one_K in E4, E5, E6, E7. cbn -[Rmult Rplus Rminus Rdiv IZR] in E4, E5, E6, E7.
  rewrite E0, E1, E2, E3 in *. fold a in E4, E5, E6, E7.
  set (s := x 4%nat + x 5%nat - 2 * d). set (t := x 6%nat + x 7%nat - 2 * d).
  assert (L1 : (2/3 + 2 * a) * s + (1/6 - a) * t = (1 - d) * (2 * a - 1/6)) by (unfold s, t; lra).
  assert (L2 : (1/6 - a) * s + (1/3 + a) * t = 0) by (unfold s, t; lra).
  assert (Out : out 2%nat = d + (s + t) / 4).
  { rewrite Ho by (unfold n_els; cbn; lia). unfold node_to_element, rsum. cbn -[Rmult Rplus Rminus Rdiv IZR]. unfold s, t. cbn [INR]. field. }
  assert (Ha : 0 <= a) by (unfold a; apply sq_nonneg).
  set (det := 2 * (1/3 + a) * (1/3 + a) - (1/6 - a) * (1/6 - a)).
  assert (Hdet : 0 < det) by (unfold det; nra).
  assert (F : det * (s + t) = (1 - d) * (2 * a - 1/6) * (2 * a + 1/6)).
  { unfold det.
    assert (F1 : (2 * (1/3 + a) * (1/3 + a) - (1/6 - a) * (1/6 - a)) * s = (1/3 + a) * ((2/3 + 2 * a) * s + (1/6 - a) * t) - (1/6 - a) * ((1/6 - a) * s + (1/3 + a) * t)) by field.
    assert (F2 : (2 * (1/3 + a) * (1/3 + a) - (1/6 - a) * (1/6 - a)) * t = (2/3 + 2 * a) * ((1/6 - a) * s + (1/3 + a) * t) - (1/6 - a) * ((2/3 + 2 * a) * s + (1/6 - a) * t)) by field.
    rewrite Rmult_plus_distr_l, F1, F2, L1, L2. field. }
  assert (St : s + t = (1 - d) * (2 * a - 1/6) * (2 * a + 1/6) / det) by (apply (Rmult_eq_reg_l det); [rewrite F; field; lra|lra]).
  split.
  - rewrite Out, St. fold det. field. lra.
  - intros Hd. rewrite Out. fold a. split; intros H.
    + destruct (Rlt_dec (12 * a) 1) as [L|L]; [exact L|exfalso].
      assert (P : 0 <= (1 - d) * (2 * a - 1/6) * (2 * a + 1/6)) by (apply Rmult_le_pos; [apply Rmult_le_pos|]; lra).
      rewrite <- F in P. assert (Hn : 0 < det * - (s + t)) by (apply Rmult_lt_0_compat; lra). lra.
    + assert (P : 0 < (1 - d) * (1/6 - 2 * a) * (2 * a + 1/6)) by (apply Rmult_lt_0_compat; [apply Rmult_lt_0_compat|]; lra).
      destruct (Rlt_dec (s + t) 0) as [L|L]; [lra|exfalso]. assert (Hn : 0 <= det * (s + t)) by (apply Rmult_le_pos; lra). lra.
Qed.
Print Assumptions C101_row_value.

(* REFUTED for small radii: with the default radius 1/100 on unit elements and the
   default lower bound 1/100 as density of the design elements next to a fixed one, the
   third element's filtered density is negative. *)
Theorem C101_negative_density_refuted :
  mesh_ok row_mesh /\ fem_matrices row_mesh /\ shape_functions row_mesh /\
  (exists out, hz_forward row_mesh row_mask (1/100) (row_d (1/100)) out) /\
  forall out, hz_forward row_mesh row_mask (1/100) (row_d (1/100)) out -> out 2%nat < -1/50.
Proof.
  split; [exact row_mesh_ok|]. split; [exact row_mesh_fem|]. split; [exact row_mesh_shapes|].
  destruct (C101_row_value (1/100) (1/100)) as (H1 & H2). split; [exact H1|]. intros out Ho. destruct (H2 out Ho) as (E & _). rewrite E. lra.
Qed.
Print Assumptions C101_negative_density_refuted.

(* the hypotheses of the two range theorems hold of the row with radius 1 *)
Example C101_instance : mesh_ok row_mesh /\ fem_matrices row_mesh /\ shape_functions row_mesh /\ coarse row_mesh 1 /\
  (exists out, hz_forward row_mesh row_mask 1 (row_d (1/100)) out /\ 1/100 < out 2%nat <= 1) /\
  (exists g, hz_gradient row_mesh row_mask 1 (fun _ => -1) g).
Proof.
  split; [exact row_mesh_ok|]. split; [exact row_mesh_fem|]. split; [exact row_mesh_shapes|].
  assert (Hc : coarse row_mesh 1) by (apply C101_row_coarse; lra). split; [exact Hc|]. split.
  - destruct (C101_row_value 1 (1/100)) as ((out & Ho) & H2). exists out. split; [exact Ho|]. destruct (H2 out Ho) as (E & _).
    split; [rewrite E; lra|]. refine (proj2 (C101_in_range row_mesh row_mask 1 (row_d (1/100)) out (1/100) 1 row_mesh_ok row_mesh_fem row_mesh_shapes Hc _ _ Ho 2%nat _)).
    + intros. unfold row_d. lra.
    + intros. lra.
    + unfold n_els. cbn. lia.
  - eexists. eexists. split; [exact (solvable row_mesh 1 (fun _ => false) 0 _ row_mesh_fem)|]. intros. reflexivity.
Qed.
