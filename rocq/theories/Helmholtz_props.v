(* C47, C48: the nodal Helmholtz filter. *)
From Verif Require Import Base Sums Filter_model Helmholtz_model.
Open Scope R_scope.
Open Scope list_scope.

(* ---------- hypotheses on the mesh and its matrices ---------- *)
Definition quad (m : mesh) (A : nat -> nat -> R) (x : nat -> R) : R :=
  rsum (map (fun i => x i * mv m A x i) (seq 0 (m_nn m))).
(* mass matrix positive definite, stiffness positive semi-definite with
   constants in its kernel (zero row sums): true of every finite element mesh
   without unused nodes *)
Definition fem_matrices (m : mesh) : Prop :=
  (forall x, (exists i, (i < m_nn m)%nat /\ x i <> 0) -> 0 < quad m (m_M m) x) /\
  (forall x, 0 <= quad m (m_K m) x) /\
  (forall i, (i < m_nn m)%nat -> mv m (m_K m) (fun _ => 1) i = 0).
Definition mesh_ok (m : mesh) : Prop :=
  (forall e, (e < n_els m)%nat -> 0 < m_vol m e /\ nth e (m_els m) [] <> [] /\
     Forall (fun i => (i < m_nn m)%nat) (nth e (m_els m) [])) /\
  (forall i, (i < m_nn m)%nat -> exists e, (e < n_els m)%nat /\ touches m e i = true).

(* ---------- averaging ---------- *)
Lemma touched_els m i : mesh_ok m -> (i < m_nn m)%nat ->
  0 < rsum (map (m_vol m) (filter (fun e => touches m e i) (seq 0 (n_els m)))).
Proof.
  intros (Hv & Hn) Hi. destruct (Hn i Hi) as (e & He & Ht). apply (rs_pos _ _ e).
  - intros y Hy. apply filter_In in Hy. destruct Hy as (Hy & _). apply in_seq in Hy. destruct (Hv y); [lia|lra].
  - apply filter_In. split; [apply in_seq; lia|exact Ht].
  - now apply Hv.
Qed.
(* nodal averaging and the mean over an element's nodes stay in the range of
   the values they average *)
Theorem C47_averaging_in_range : forall m mask fixed rho lo hi i, mesh_ok m -> (i < m_nn m)%nat ->
  (forall e, (e < n_els m)%nat -> touches m e i = true -> is_design mask e = true -> lo <= rho e <= hi) ->
  (forall e, (e < n_els m)%nat -> touches m e i = true -> is_design mask e = false -> lo <= fixed <= hi) ->
  lo <= element_to_node m mask fixed rho i <= hi.
Proof.
  intros m mask fixed rho lo hi i Hm Hi H1 H2. unfold element_to_node.
  set (els := filter _ _). pose proof (touched_els m i Hm Hi) as Hd. fold els in Hd.
  assert (Reqb (rsum (map (m_vol m) els)) 0 = false) as -> by (apply Reqb_false; lra).
  set (d := rsum (map (m_vol m) els)) in *.
  assert (E : rsum (map (fun e => m_vol m e * (if is_design mask e then rho e else fixed)) els) / d =
    rsum (map (fun e => m_vol m e / d * (if is_design mask e then rho e else fixed)) els)).
  { unfold Rdiv. rewrite <- rs_scal_r. apply rs_ext. intros e _. ring. }
  rewrite E. apply rs_convex.
  - intros e He. apply filter_In in He. destruct He as (He & _). apply in_seq in He. destruct Hm as (Hv & _).
    destruct (Hv e) as (Hp & _); [lia|]. left. now apply Rdiv_lt_0_compat.
  - unfold Rdiv. rewrite rs_scal_r. fold d. field. lra.
  - intros e He _. apply filter_In in He. destruct He as (He & Ht). apply in_seq in He.
    destruct (is_design mask e) eqn:Ed; [apply (H1 e)|apply (H2 e)]; auto; lia.
Qed.
Print Assumptions C47_averaging_in_range.

Theorem C47_node_mean_in_range : forall m x lo hi e, mesh_ok m -> (e < n_els m)%nat ->
  (forall i, (i < m_nn m)%nat -> lo <= x i <= hi) -> lo <= node_to_element m x e <= hi.
Proof.
  intros m x lo hi e (Hv & _) He Hx. unfold node_to_element. destruct (Hv e He) as (_ & Hne & HF).
  set (l := nth e (m_els m) []) in *. rewrite Forall_forall in HF.
  assert (Hp : 0 < INR (List.length l)) by (apply lt_0_INR; destruct l; [easy|simpl; lia]).
  assert (Hs : INR (List.length l) * lo <= rsum (map x l) <= INR (List.length l) * hi).
  { rewrite <- !rs_const. split; apply rs_le; intros i Hi; destruct (Hx i (HF i Hi)); lra. }
  split.
  - apply Rmult_le_reg_r with (INR (List.length l)); [exact Hp|]. unfold Rdiv. rewrite Rmult_assoc, Rinv_l by lra. lra.
  - apply Rmult_le_reg_r with (INR (List.length l)); [exact Hp|]. unfold Rdiv. rewrite Rmult_assoc, Rinv_l by lra. lra.
Qed.
Print Assumptions C47_node_mean_in_range.

(* ---------- uniqueness of the solve ---------- *)
Lemma mv_minus m A x y i : mv m A (fun j => x j - y j) i = mv m A x i - mv m A y i.
Proof. unfold mv. rewrite <- rs_minus. apply rs_ext. intros; ring. Qed.
Lemma mv_A m r x i : mv m (A_of m r) x i = mv m (m_M m) x i + r * r * mv m (m_K m) x i.
Proof. unfold mv, A_of. rewrite <- rs_scal, <- rs_plus. apply rs_ext. intros; ring. Qed.
Lemma solves_unique m r D bc b x y : fem_matrices m -> solves m r D bc b x -> solves m r D bc b y ->
  forall i, (i < m_nn m)%nat -> x i = y i.
Proof.
  intros (HM & HK & _) Hx Hy i Hi. destruct (Req_dec (x i) (y i)) as [E|E]; [exact E|exfalso].
  pose (z := fun j => x j - y j).
  assert (HzM : 0 < quad m (m_M m) z) by (apply HM; exists i; split; [exact Hi|unfold z; lra]).
  pose proof (HK z) as HzK.
  assert (H0 : rsum (map (fun j => z j * mv m (A_of m r) z j) (seq 0 (m_nn m))) = 0).
  { apply rs_zero. intros j Hj. apply in_seq in Hj. specialize (Hx j ltac:(lia)). specialize (Hy j ltac:(lia)).
    destruct (D j).
    - unfold z. rewrite Hx, Hy. ring.
    - unfold z at 2. rewrite mv_minus, Hx, Hy. ring. }
  rewrite (rs_ext _ (fun j => z j * mv m (m_M m) z j + r * r * (z j * mv m (m_K m) z j))) in H0
    by (intros; rewrite mv_A; ring).
  rewrite rs_plus, rs_scal in H0. fold (quad m (m_M m) z) (quad m (m_K m) z) in H0.
  assert (0 <= r * r) by (pose proof (Rle_0_sqr r); unfold Rsqr in *; lra). nra.
Qed.
(* ---------- C47: constants ---------- *)
Lemma avg_const m mask c : mesh_ok m -> (forall e, (e < n_els m)%nat -> is_design mask e = true \/ c = 1) ->
  forall i, (i < m_nn m)%nat -> element_to_node m mask 1 (fun _ => c) i = c.
Proof.
  intros Hm Hd i Hi.
  assert (H : c <= element_to_node m mask 1 (fun _ => c) i <= c); [|lra].
  apply C47_averaging_in_range; auto.
  - intros; lra.
  - intros e He _ Hf. destruct (Hd e He) as [Ht| ->]; [congruence|lra].
Qed.
Lemma const_solves m mask r c : fem_matrices m -> mesh_ok m ->
  (forall e, (e < n_els m)%nat -> is_design mask e = true \/ c = 1) ->
  solves m r (fixed_node m mask) 1 (mv m (m_M m) (element_to_node m mask 1 (fun _ => c))) (fun _ => c).
Proof.
  intros (_ & _ & HK) Hm Hd i Hi. destruct (fixed_node m mask i) eqn:E.
  - unfold fixed_node in E. apply existsb_exists in E. destruct E as (e & He & Hb). apply in_seq in He.
    apply andb_true_iff in Hb. destruct Hb as (Hb & _). destruct (Hd e); [lia| |assumption].
    rewrite H in Hb. discriminate.
  - rewrite mv_A.
    assert (Hk : mv m (m_K m) (fun _ => c) i = 0).
    { specialize (HK i Hi). unfold mv in *. rewrite rs_scal_r. rewrite rs_scal_r, Rmult_1_r in HK. rewrite HK. ring. }
    rewrite Hk. unfold mv. rewrite (rs_ext (fun j => m_M m i j * element_to_node m mask 1 (fun _ => c) j) (fun j => m_M m i j * c)); [lra|].
    intros j Hj. apply in_seq in Hj. rewrite avg_const; auto. lia.
Qed.

(* Constants are preserved when every element is a design element (mask absent
   or all true), and the constant 1 always - for any mesh, radius and solver
   result, and such a result exists.  MISSING for the full C47: constants other
   than 1 when fixed elements exist; refuted below. *)
Theorem C47_constants_preserved_partial : forall m mask r c out, fem_matrices m -> mesh_ok m ->
  (forall e, (e < n_els m)%nat -> is_design mask e = true) \/ c = 1 ->
  hz_forward m mask r (fun _ => c) (fun _ => c) /\
  (hz_forward m mask r (fun _ => c) out -> forall e, (e < n_els m)%nat -> out e = c).
Proof.
  intros m mask r c out Hf Hm Hd.
  assert (Hd' : forall e, (e < n_els m)%nat -> is_design mask e = true \/ c = 1) by (intros e He; destruct Hd; auto).
  assert (Hmean : forall e, (e < n_els m)%nat -> node_to_element m (fun _ => c) e = c).
  { intros e He. assert (c <= node_to_element m (fun _ => c) e <= c); [|lra].
    apply C47_node_mean_in_range; auto. intros; lra. }
  split.
  - exists (fun _ => c). split; [now apply const_solves|]. intros e He. symmetry. now apply Hmean.
  - intros (x & Hx & Ho) e He. rewrite (Ho e He).
    assert (Hxc : forall i, (i < m_nn m)%nat -> x i = c).
    { intros i Hi. apply (solves_unique m r (fixed_node m mask) 1 _ x (fun _ => c) Hf Hx); [now apply const_solves|exact Hi]. }
    assert (H : c <= node_to_element m x e <= c); [|lra].
    apply C47_node_mean_in_range; auto. intros i Hi. rewrite Hxc by exact Hi. lra.
Qed.
Print Assumptions C47_constants_preserved_partial.

(* the unit square cut into two triangles, P1 elements *)
Definition square : mesh := mkMesh 4 [[0; 1; 2]; [1; 3; 2]]%nat (fun _ => 1 / 2)
  (fun i j => nth j (nth i [[1/12; 1/24; 1/24; 0]; [1/24; 1/6; 1/12; 1/24]; [1/24; 1/12; 1/6; 1/24]; [0; 1/24; 1/24; 1/12]] []) 0)
  (fun i j => nth j (nth i [[1; -1/2; -1/2; 0]; [-1/2; 1; 0; -1/2]; [-1/2; 0; 1; -1/2]; [0; -1/2; -1/2; 1]] []) 0).
Lemma square_ok : mesh_ok square.
Proof.
  split.
  - intros e He. unfold n_els in He. simpl in He. simpl m_vol.
    destruct e as [|[|e]]; [| |simpl in He; lia]; (split; [lra|split; [discriminate|repeat constructor; simpl; lia]]).
  - intros i Hi. simpl in Hi. destruct i as [|[|[|[|i]]]]; try lia; [exists 0%nat|exists 0%nat|exists 0%nat|exists 1%nat];
    (split; [unfold n_els; simpl; lia|reflexivity]).
Qed.
Lemma square_fem : fem_matrices square.
Proof.
  split; [|split].
  - intros x (i & Hi & Hx). unfold quad, mv. simpl.
    assert (E : 0 < x 0%nat * x 0%nat + x 1%nat * x 1%nat + x 2%nat * x 2%nat + x 3%nat * x 3%nat).
    { simpl in Hi. assert (Hs : 0 < x i * x i) by (pose proof (Rlt_0_sqr (x i) Hx); unfold Rsqr in *; lra).
      pose proof (Rle_0_sqr (x 0%nat)). pose proof (Rle_0_sqr (x 1%nat)). pose proof (Rle_0_sqr (x 2%nat)). pose proof (Rle_0_sqr (x 3%nat)).
      unfold Rsqr in *. destruct i as [|[|[|[|i]]]]; try lia; lra. }
    pose proof (Rle_0_sqr (x 0%nat + x 1%nat + x 2%nat)). pose proof (Rle_0_sqr (x 1%nat + x 2%nat + x 3%nat)).
    pose proof (Rle_0_sqr (x 1%nat)). pose proof (Rle_0_sqr (x 2%nat)). unfold Rsqr in *. nra.
  - intros x. unfold quad, mv. simpl.
    pose proof (Rle_0_sqr (x 0%nat - x 1%nat)). pose proof (Rle_0_sqr (x 0%nat - x 2%nat)).
    pose proof (Rle_0_sqr (x 3%nat - x 1%nat)). pose proof (Rle_0_sqr (x 3%nat - x 2%nat)). unfold Rsqr in *. nra.
  - intros i Hi. simpl in Hi. unfold mv. simpl. destruct i as [|[|[|[|i]]]]; try lia; simpl; lra.
Qed.

(* REFUTED with a fixed element: the density 0 in the design element of the
   square comes out different from 0 for every radius *)
Theorem C47_fixed_elements_refuted : forall r,
  (exists out, hz_forward square (Some [true; false]) r (fun _ => 0) out) /\
  (forall out, hz_forward square (Some [true; false]) r (fun _ => 0) out -> 0 < out 0%nat).
Proof.
  intros r. assert (Hr : 0 <= r * r) by (pose proof (Rle_0_sqr r); unfold Rsqr in *; lra).
  assert (Hrho : forall i, (i < 4)%nat -> element_to_node square (Some [true; false]) 1 (fun _ => 0) i = nth i [0; 1/2; 1/2; 1] 0).
  { intros i Hi. unfold element_to_node, touches. destruct i as [|[|[|[|i]]]]; try lia; simpl;
    match goal with |- context [Reqb ?a 0] => assert (Reqb a 0 = false) as -> by (apply Reqb_false; lra) end; field. }
  assert (Hb : mv square (m_M square) (element_to_node square (Some [true; false]) 1 (fun _ => 0)) 0 = 1 / 24).
  { unfold mv. cbn [m_nn square seq map]. rewrite !Hrho by lia. simpl. lra. }
  assert (Ef : fixed_node square (Some [true; false]) 0 = false) by reflexivity.
  assert (Ef1 : fixed_node square (Some [true; false]) 1 = true) by reflexivity.
  assert (Ef2 : fixed_node square (Some [true; false]) 2 = true) by reflexivity.
  assert (Ef3 : fixed_node square (Some [true; false]) 3 = true) by reflexivity.
  split.
  - exists (node_to_element square (fun i => if Nat.eqb i 0 then (r * r - 1/24) / (r * r + 1/12) else 1)).
    eexists. split; [|intros; reflexivity]. intros i Hi. simpl in Hi.
    destruct i as [|[|[|[|i]]]]; try lia; [rewrite Ef, Hb|rewrite Ef1; reflexivity|rewrite Ef2; reflexivity|rewrite Ef3; reflexivity].
    unfold mv, A_of. simpl. field. lra.
  - intros out (x & Hx & Ho).
    pose proof (Hx 0%nat ltac:(simpl; lia)) as E0. pose proof (Hx 1%nat ltac:(simpl; lia)) as E1.
    pose proof (Hx 2%nat ltac:(simpl; lia)) as E2. pose proof (Hx 3%nat ltac:(simpl; lia)) as E3.
    rewrite Ef1 in E1. rewrite Ef2 in E2. rewrite Ef3 in E3. rewrite Ef, Hb in E0.
    unfold mv, A_of in E0. simpl in E0. rewrite E1, E2, E3 in E0.
    rewrite (Ho 0%nat) by (unfold n_els; simpl; lia). unfold node_to_element. simpl. rewrite E1, E2.
    assert (E0' : (r * r + 1 / 12) * x 0%nat = r * r - 1 / 24) by lra.
    assert (-2 < x 0%nat) by nra. lra.
Qed.
Print Assumptions C47_fixed_elements_refuted.

(* ---------- C48 ---------- *)
(* what gradient really computes without a mask: the forward filter again,
   with positive results replaced by zero *)
Theorem C48_gradient_is_clamped_forward : forall m r v g,
  hz_gradient m None r v g <->
  exists o, hz_forward m None r v o /\ forall e, (e < n_els m)%nat -> g e = Rmin (o e) 0.
Proof.
  intros m r v g.
  assert (HD : forall i, fixed_node m None i = false).
  { intros i. unfold fixed_node. induction (seq 0 (n_els m)); simpl; auto. }
  assert (Hav : forall i, element_to_node m None 0 v i = element_to_node m None 1 v i) by reflexivity.
  split.
  - intros (x & Hx & Ho). exists (node_to_element m x). split; [|exact Ho]. exists x. split; [|easy].
    intros i Hi. rewrite HD. exact (Hx i Hi).
  - intros (o & (x & Hx & Ho) & Hg). exists x. split.
    + intros i Hi. specialize (Hx i Hi). rewrite HD in Hx. exact Hx.
    + intros e He. rewrite Hg, Ho by exact He. reflexivity.
Qed.
Print Assumptions C48_gradient_is_clamped_forward.

(* REFUTED for sensitivities of any sign, on every mesh: if v has positive sum,
   pairing with the constant density 1 already disproves adjointness *)
Theorem C48_not_adjoint_any_sign_refuted : forall m r v f1 g, fem_matrices m -> mesh_ok m ->
  hz_forward m None r (fun _ => 1) f1 -> hz_gradient m None r v g ->
  0 < rsum (map v (seq 0 (n_els m))) ->
  rsum (map (fun e => f1 e * v e) (seq 0 (n_els m))) <> rsum (map (fun e => 1 * g e) (seq 0 (n_els m))).
Proof.
  intros m r v f1 g Hf Hm H1 (x & _ & Hg) Hv E.
  assert (Hf1 : forall e, (e < n_els m)%nat -> f1 e = 1).
  { intros e He. apply (C47_constants_preserved_partial m None r 1 f1 Hf Hm); auto. }
  rewrite (rs_ext (fun e => f1 e * v e) v) in E by (intros e He; apply in_seq in He; rewrite Hf1 by lia; ring).
  assert (rsum (map (fun e => 1 * g e) (seq 0 (n_els m))) <= 0); [|lra].
  apply rs_nonpos. intros e He. apply in_seq in He. rewrite Hg by lia. pose proof (Rmin_r (node_to_element m x e) 0). lra.
Qed.
Print Assumptions C48_not_adjoint_any_sign_refuted.

(* REFUTED also for non-positive sensitivities when element volumes differ:
   a triangle of area 1 next to one of area 3, radius 1 *)
Definition kite : mesh := mkMesh 4 [[0; 1; 2]; [1; 3; 2]]%nat (fun e => nth e [1; 3] 0)
  (fun i j => nth j (nth i [[1/6; 1/12; 1/12; 0]; [1/12; 2/3; 1/3; 1/4]; [1/12; 1/3; 2/3; 1/4]; [0; 1/4; 1/4; 1/2]] []) 0)
  (fun i j => nth j (nth i [[1; -1/2; -1/2; 0]; [-1/2; 4/3; -2/3; -1/6]; [-1/2; -2/3; 4/3; -1/6]; [0; -1/6; -1/6; 1/3]] []) 0).
Lemma kite_ok : mesh_ok kite.
Proof.
  split.
  - intros e He. unfold n_els in He. simpl in He.
    destruct e as [|[|e]]; [| |simpl in He; lia]; (split; [simpl; lra|split; [discriminate|repeat constructor; simpl; lia]]).
  - intros i Hi. simpl in Hi. destruct i as [|[|[|[|i]]]]; try lia; [exists 0%nat|exists 0%nat|exists 0%nat|exists 1%nat];
    (split; [unfold n_els; simpl; lia|reflexivity]).
Qed.
Lemma kite_fem : fem_matrices kite.
Proof.
  split; [|split].
  - intros x (i & Hi & Hx). unfold quad, mv. simpl.
    assert (E : 0 < x 0%nat * x 0%nat + x 1%nat * x 1%nat + x 2%nat * x 2%nat + x 3%nat * x 3%nat).
    { simpl in Hi. assert (Hs : 0 < x i * x i) by (pose proof (Rlt_0_sqr (x i) Hx); unfold Rsqr in *; lra).
      pose proof (Rle_0_sqr (x 0%nat)). pose proof (Rle_0_sqr (x 1%nat)). pose proof (Rle_0_sqr (x 2%nat)). pose proof (Rle_0_sqr (x 3%nat)).
      unfold Rsqr in *. destruct i as [|[|[|[|i]]]]; try lia; lra. }
    pose proof (Rle_0_sqr (x 0%nat + x 1%nat + x 2%nat)). pose proof (Rle_0_sqr (x 1%nat + x 2%nat + x 3%nat)).
    pose proof (Rle_0_sqr (x 0%nat)). pose proof (Rle_0_sqr (x 1%nat)). pose proof (Rle_0_sqr (x 2%nat)). pose proof (Rle_0_sqr (x 3%nat)). unfold Rsqr in *. nra.
  - intros x. unfold quad, mv. simpl.
    pose proof (Rle_0_sqr (x 0%nat - x 1%nat)). pose proof (Rle_0_sqr (x 0%nat - x 2%nat)).
    pose proof (Rle_0_sqr (x 3%nat - x 1%nat)). pose proof (Rle_0_sqr (x 3%nat - x 2%nat)). pose proof (Rle_0_sqr (x 1%nat - x 2%nat)). unfold Rsqr in *. nra.
  - intros i Hi. simpl in Hi. unfold mv. simpl. destruct i as [|[|[|[|i]]]]; try lia; simpl; lra.
Qed.
Theorem C48_not_adjoint_nonpositive_refuted : let v := fun e : nat => if Nat.eqb e 0 then -1 else 0 in
  (exists g, hz_gradient kite None 1 v g) /\
  forall f1 g, hz_forward kite None 1 (fun _ => 1) f1 -> hz_gradient kite None 1 v g ->
    rsum (map (fun e => f1 e * v e) (seq 0 2)) = -1 /\ rsum (map (fun e => 1 * g e) (seq 0 2)) = -39 / 71.
Proof.
  intros v.
  assert (Hrho : forall i, (i < 4)%nat -> element_to_node kite None 0 v i = nth i [-1; -1/4; -1/4; 0] 0).
  { intros i Hi. unfold element_to_node, touches. destruct i as [|[|[|[|i]]]]; try lia; simpl;
    match goal with |- context [Reqb ?a 0] => assert (Reqb a 0 = false) as -> by (apply Reqb_false; lra) end; unfold v; simpl; field. }
  pose (x0 := fun i => nth i [-55/142; -83/284; -83/284; -13/142] 0).
  assert (Hx0 : solves kite 1 (fun _ => false) 0 (mv kite (m_M kite) (element_to_node kite None 0 v)) x0).
  { intros i Hi. simpl in Hi. unfold mv at 2. cbn [m_nn kite seq map]. rewrite !Hrho by lia.
    unfold mv, A_of, x0. destruct i as [|[|[|[|i]]]]; try lia; simpl; lra. }
  split.
  - exists (fun e => Rmin (node_to_element kite x0 e) 0). exists x0. split; [exact Hx0|easy].
  - intros f1 g H1 (x & Hx & Hg).
    assert (Hxe : forall i, (i < 4)%nat -> x i = x0 i).
    { intros i Hi. apply (solves_unique kite 1 (fun _ => false) 0 _ x x0 kite_fem Hx Hx0). exact Hi. }
    assert (Hf1 : forall e, (e < 2)%nat -> f1 e = 1).
    { intros e He. apply (C47_constants_preserved_partial kite None 1 1 f1 kite_fem kite_ok); auto. }
    split.
    + cbn [seq map rsum fold_right]. rewrite !Hf1 by lia. unfold v. simpl. lra.
    + cbn [seq map rsum fold_right]. rewrite !Hg by (unfold n_els; simpl; lia). unfold node_to_element. simpl.
      rewrite !Hxe by lia. unfold x0. simpl. rewrite !Rmin_left by lra. lra.
Qed.
Print Assumptions C48_not_adjoint_nonpositive_refuted.

(* PARTIAL positive result: on each mesh and each non-positive v whose filtered
   value is non-positive, gradient is linear filtering by the same operator,
   hence the adjoint exactly when that operator is self-adjoint.  MISSING: the
   transpose itself, see the refutations. *)
Theorem C48_adjoint_iff_selfadjoint_partial : forall m r u v fu fv g,
  hz_forward m None r u fu -> hz_forward m None r v fv -> hz_gradient m None r v g ->
  fem_matrices m -> mesh_ok m -> (forall e, (e < n_els m)%nat -> fv e <= 0) ->
  rsum (map (fun e => fu e * v e) (seq 0 (n_els m))) = rsum (map (fun e => u e * fv e) (seq 0 (n_els m))) <->
  rsum (map (fun e => fu e * v e) (seq 0 (n_els m))) = rsum (map (fun e => u e * g e) (seq 0 (n_els m))).
Proof.
  intros m r u v fu fv g _ Hv Hg Hf Hm Hneg.
  assert (Hge : forall e, (e < n_els m)%nat -> g e = fv e).
  { apply C48_gradient_is_clamped_forward in Hg. destruct Hg as (o & Ho & Hg). intros e He. rewrite Hg by exact He.
    destruct Hv as (x & Hx & Hxo). destruct Ho as (y & Hy & Hyo).
    assert (Hxy : forall i, (i < m_nn m)%nat -> x i = y i) by (apply (solves_unique m r _ 1 _ x y Hf Hx Hy)).
    assert (E : o e = fv e).
    { rewrite Hyo, Hxo by exact He. unfold node_to_element. f_equal. apply rs_ext. intros i Hi.
      destruct Hm as (Hv' & _). destruct (Hv' e He) as (_ & _ & HF). rewrite Forall_forall in HF. symmetry. auto. }
    rewrite E, Rmin_left; [reflexivity|auto]. }
  rewrite (rs_ext (fun e => u e * g e) (fun e => u e * fv e)); [reflexivity|].
  intros e He. apply in_seq in He. rewrite Hge by lia. reflexivity.
Qed.
Print Assumptions C48_adjoint_iff_selfadjoint_partial.
Example C47_C48_instance : mesh_ok square /\ fem_matrices square /\ mesh_ok kite /\ fem_matrices kite /\
  hz_forward square None (3 / 10) (fun _ => 7 / 10) (fun _ => 7 / 10).
Proof.
  split; [exact square_ok|]. split; [exact square_fem|]. split; [exact kite_ok|]. split; [exact kite_fem|].
  apply (C47_constants_preserved_partial square None (3/10) (7/10) (fun _ => 0) square_fem square_ok). now left.
Qed.
