(* C88, continued: the tagged problem toy2. *)
From Coq Require Import Lia Permutation.
From Verif Require Import Base Sums Mesh_model Mesh_spec Mesh_proofs Mesh_props Adj_model Adj_props Box_model Box_props Toy_model Toy_props.
From Verif Require Tags_model Tags_props Ckpt_model Ckpt_proofs.
Open Scope R_scope.
Open Scope list_scope.

Lemma filter_one {A} (P : A -> bool) (L : list A) x0 : NoDup L -> In x0 L -> (forall x, In x L -> (P x = true <-> x = x0)) -> List.length (filter P L) = 1%nat.
Proof.
  intros Hn Hin HP. assert (Q : Permutation (filter P L) [x0]).
  { apply NoDup_Permutation; [now apply NoDup_filter|repeat constructor; intros []|]. intros x. rewrite filter_In. cbn [In]. split.
    - intros (A1 & A2). left. symmetry. now apply HP.
    - intros [<-|[]]. split; [exact Hin|]. now apply HP. }
  exact (Permutation_length Q).
Qed.
Lemma mem_in n l : mem n l = true <-> In n l.
Proof. unfold mem. rewrite existsb_exists. split; [intros (x & Hx & E); apply Nat.eqb_eq in E; now subst|intros H; exists n; split; [exact H|apply Nat.eqb_refl]]. Qed.

Section box.
  Variables (xl yl zl size : R).
  Hypothesis (Hx : 0 < xl) (Hy : 0 < yl) (Hz : 0 < zl) (Hs : 0 < size).
  Let nx := cells xl size. Let ny := cells yl size. Let nz := cells zl size.
  Let d := mkDims nx ny nz.
  Let m := create_box_hex xl yl zl size.
  Lemma cells_nodup : NoDup (m_t m).
  Proof.
    apply (NoDup_nth _ []). intros a b Ha Hb E.
    destruct (cell_at xl yl zl size Hx Hy Hz Hs a Ha) as (i & j & k & A1 & A2 & A3 & A4 & A5).
    destruct (cell_at xl yl zl size Hx Hy Hz Hs b Hb) as (i' & j' & k' & B1 & B2 & B3 & B4 & B5).
    assert (E2 : hex_of d i j k = hex_of d i' j' k') by (transitivity (nth a (m_t m) []); [symmetry; exact A5|transitivity (nth b (m_t m) []); [exact E|exact B5]]).
    unfold hex_of in E2. cbv zeta in E2. injection E2 as E2 _ _ _ _ _ _ _.
    apply (node_inj xl yl zl size) in E2; [|unfold nx, ny in *; lia..]. destruct E2 as (-> & -> & ->). rewrite A4, B4. reflexivity.
  Qed.
  (* a facet at an end of the box in direction x belongs to one element *)
  Lemma end_owner f i j k : (i = 0 \/ i = nx)%nat -> (j < ny)%nat -> (k < nz)%nat -> Permutation f (lat xl yl zl size AX i j k) -> owners (m_t m) f = 1%nat.
  Proof.
    intros Hi Hj Hk HP. pose proof (proj1 (cells_spec xl size Hx Hs)) as Cx. fold nx in Cx.
    set (i0 := if Nat.eq_dec i 0 then 0%nat else (nx - 1)%nat).
    assert (Hi0 : (i0 < nx)%nat) by (unfold i0; destruct (Nat.eq_dec i 0); lia).
    unfold owners. apply (filter_one _ _ (hex_of d i0 j k) cells_nodup).
    { apply (in_cells xl yl zl size Hx Hy Hz Hs). now exists i0, j, k. }
    intros e He. apply (in_cells xl yl zl size Hx Hy Hz Hs) in He. destruct He as (a & b & c & A & B & C & ->). rewrite forallb_forall.
    split.
    - intros H. assert (G : forall n, In n (lat xl yl zl size AX i j k) -> In n (hex_of d a b c)).
      { intros n Hn. apply mem_in. apply H. now apply (Permutation_in n (Permutation_sym HP)). }
      assert (I : forall v w, (v <= ny)%nat -> (w <= nz)%nat -> In (node_number d i v w) (lat xl yl zl size AX i j k) -> (i = a \/ i = a + 1)%nat /\ (v = b \/ v = b + 1)%nat /\ (w = c \/ w = c + 1)%nat).
      { intros v w Hv Hw Hn. apply G in Hn. apply (in_hex xl yl zl size) in Hn. destruct Hn as (a' & b' & c' & A' & B' & C' & E).
        apply (node_inj xl yl zl size) in E; [|unfold nx, ny, nz in *; lia..]. destruct E as (-> & -> & ->). auto. }
      destruct (I j k ltac:(lia) ltac:(lia) ltac:(unfold lat; cbn [In]; tauto)) as (I1 & I2 & I3).
      destruct (I (j + 1)%nat (k + 1)%nat ltac:(lia) ltac:(lia) ltac:(unfold lat; cbn [In]; tauto)) as (I4 & I5 & I6).
      assert (b = j) by lia. assert (c = k) by lia. subst b c. assert (a = i0) by (unfold i0; destruct (Nat.eq_dec i 0); lia). now subst a.
    - intros E n Hn. apply mem_in. rewrite E. apply (Permutation_in n HP) in Hn. apply (in_hex xl yl zl size). unfold lat in Hn. fold nx ny nz in Hn |- *.
      cbn [In] in Hn. destruct Hn as [<-|[<-|[<-|[<-|[]]]]]; do 3 eexists; (split; [|split; [|split; [|reflexivity]]]); unfold i0; destruct (Nat.eq_dec i 0); lia.
  Qed.
End box.

Lemma tags2 a b c : let D := [(Tags_model.lit "dirichlet", a); (Tags_model.lit "neumann_0", b); (Tags_model.lit "neumann_1", c)] in
  Tags_model.elastic_dirichlet D = Tags_model.FArr a /\ Tags_model.elastic_neumann D = Tags_model.FList [b; c].
Proof. split; reflexivity. Qed.

Lemma cells_is len size n : 0 < len -> 0 < size -> len <= INR n * size -> (INR n - 1) * size < len -> cells len size = n.
Proof.
  intros Hl Hs A B. destruct (cells_spec len size Hl Hs) as (H1 & H2 & H3).
  assert (INR (cells len size) < INR n + 1) by nra. assert (INR n < INR (cells len size) + 1) by nra.
  rewrite <- S_INR in *. apply INR_lt in H. apply INR_lt in H0. lia.
Qed.

(* toy2 as built: two load cases, with resultants (0, -1, 0) and (0, 1, 0), on the
   nodes of the end face x = 8 in the first and last row of elements; held exactly
   at x = 0; and designed are exactly the elements without a loaded node. *)
Theorem C88_toy2 : forall area shape facets,
  let m := create_box_hex 8 8 1 (3 / 10) in let N := List.length (m_p m) in let h := 8 / 27 in
  enumerates_facets (m_t m) facets ->
  (forall f, (f < List.length facets)%nat -> Tags_props.facet_ok area shape N f) ->
  (forall f n w, In (n, w) (shape f) -> In n (nth f facets [])) ->
  exists dom F0 F1, toy2 area shape facets = Ok (dom, [F0; F1]) /\
    (forall c, (c < 3)%nat -> Tags_props.resultant N F0 c = if Nat.eqb c 1 then -1 else 0) /\
    (forall c, (c < 3)%nat -> Tags_props.resultant N F1 c = if Nat.eqb c 1 then 1 else 0) /\
    (forall n, ~ (vx (at_node m n) = 8 /\ 8 - h <= vy (at_node m n)) -> Tags_props.unloaded F0 n) /\
    (forall n, ~ (vx (at_node m n) = 8 /\ vy (at_node m n) <= h) -> Tags_props.unloaded F1 n) /\
    (forall k, In k (d_free_dofs dom) <-> (k < 3 * N)%nat /\ vx (at_node m (k / 3)%nat) <> 0) /\
    (forall e, In e (d_design dom) <-> (e < List.length (m_t m))%nat /\
       forall n, In n (nth e (m_t m) []) -> ~ (vx (at_node m n) = 8 /\ (8 - h <= vy (at_node m n) \/ vy (at_node m n) <= h))).
Proof.
  intros area shape facets m N h Hen Harea Hshape.
  assert (P8 : 0 < 8) by lra. assert (P1 : 0 < 1) by lra. assert (Hs : 0 < 3 / 10) by lra.
  assert (E27 : cells 8 (3 / 10) = 27%nat) by (apply cells_is; try lra; replace (INR 27) with 27 by (rewrite INR_IZR_INZ; reflexivity); lra).
  assert (E4 : cells 1 (3 / 10) = 4%nat) by (apply cells_is; try lra; replace (INR 4) with 4 by (rewrite INR_IZR_INZ; reflexivity); lra).
  assert (I27 : INR 27 = 27) by (rewrite INR_IZR_INZ; reflexivity). assert (I4 : INR 4 = 4) by (rewrite INR_IZR_INZ; reflexivity).
  (* coordinates *)
  set (D := {| d_x := 27; d_y := 27; d_z := 4 |}).
  assert (V : forall i j k, (i <= 27)%nat -> (j <= 27)%nat -> (k <= 4)%nat -> at_node m (node_number D i j k) = (INR i * h, INR j * h, INR k * (1 / 4))).
  { intros i j k A B C. pose proof (node_val 8 8 1 (3 / 10) i j k) as E. rewrite !E27, !E4, I27, I4 in E. exact (E A B C). }
  assert (X8 : forall i, (i <= 27)%nat -> (INR i * h = 8 <-> i = 27%nat)).
  { intros i Hi. unfold h. split; [|intros ->; rewrite I27; field]. intros E. apply INR_eq. rewrite I27. lra. }
  assert (Y0 : forall j, (j <= 27)%nat -> (8 - h <= INR j * h <-> (26 <= j)%nat)).
  { intros j Hj. unfold h. split; intros E.
    - destruct (Nat.le_gt_cases 26 j) as [|L]; [assumption|exfalso]. assert (INR j <= INR 25) by (apply le_INR; lia). replace (INR 25) with 25 in * by (rewrite INR_IZR_INZ; reflexivity). lra.
    - apply le_INR in E. replace (INR 26) with 26 in * by (rewrite INR_IZR_INZ; reflexivity). lra. }
  assert (Y1 : forall j, (j <= 27)%nat -> (INR j * h <= h <-> (j <= 1)%nat)).
  { intros j Hj. unfold h. split; intros E.
    - destruct (Nat.le_gt_cases j 1) as [|L]; [assumption|exfalso]. assert (INR 2 <= INR j) by (apply le_INR; lia). cbn [INR] in H. lra.
    - apply le_INR in E. cbn [INR] in E. lra. }
  (* lattice midpoints *)
  assert (LM : forall a i j k, lat_mid 8 8 1 (3 / 10) a i j k = match a with
     | AX => (INR i * h, (INR j + 1 / 2) * h, (INR k + 1 / 2) * (1 / 4)) | AY => ((INR i + 1 / 2) * h, INR j * h, (INR k + 1 / 2) * (1 / 4))
     | AZ => ((INR i + 1 / 2) * h, (INR j + 1 / 2) * h, INR k * (1 / 4)) end).
  { intros a i j k. unfold lat_mid. rewrite E27, E4, I27, I4. reflexivity. }
  assert (LO : forall a i j k, lat_ok 8 8 1 (3 / 10) a i j k <-> match a with
     | AX => (i <= 27 /\ j < 27 /\ k < 4)%nat | AY => (i < 27 /\ j <= 27 /\ k < 4)%nat | AZ => (i < 27 /\ j < 27 /\ k <= 4)%nat end).
  { intros a i j k. unfold lat_ok. rewrite E27, E4. destruct a; reflexivity. }
  assert (LL : forall i j k, lat 8 8 1 (3 / 10) AX i j k = [node_number D i j k; node_number D i (j + 1) k; node_number D i j (k + 1); node_number D i (j + 1) (k + 1)]%nat).
  { intros i j k. unfold lat. rewrite E27, E4. reflexivity. }
  assert (In4 : forall k, (k < 4)%nat -> 0 <= (INR k + 1 / 2) * (1 / 4) <= 1).
  { intros k Hk. pose proof (pos_INR k). assert (INR k <= INR 3) by (apply le_INR; lia). cbn [INR] in H0. lra. }
  (* a load selector at x = 8 takes the x-facets of one row *)
  assert (SEL : forall ylo yhi row, (forall j, (j < 27)%nat -> (ylo <= (INR j + 1 / 2) * h <= yhi <-> j = row)) -> (row < 27)%nat ->
    let sel := boundary_satisfying (m_p m) (m_t m) facets (points_in_range (8, 8) (ylo, yhi) (0, 1)) in
    sel <> [] /\ (forall f, In f sel -> (f < List.length facets)%nat) /\
    forall n, node_of facets sel n <-> exists j k, (j = row \/ j = row + 1)%nat /\ (k <= 4)%nat /\ n = node_number D 27 j k).
  { intros ylo yhi row Hrow Hr sel.
    assert (T : forall a i j k, lat_ok 8 8 1 (3 / 10) a i j k -> (points_in_range (8, 8) (ylo, yhi) (0, 1) (lat_mid 8 8 1 (3 / 10) a i j k) = true <-> a = AX /\ i = 27%nat /\ j = row)).
    { intros a i j k Ho. rewrite in_range_iff, LM. apply LO in Ho. unfold in_box.
      destruct a; unfold vx, vy, vz; cbn [fst snd].
      - split.
        + intros ((A1 & A2) & A3 & _). split; [reflexivity|]. split; [apply X8; [lia|lra]|]. apply Hrow; [lia|exact A3].
        + intros (_ & -> & ->). split; [rewrite I27; unfold h; lra|]. split; [now apply Hrow|]. apply In4. lia.
      - split; [|intros (E & _); discriminate]. intros ((A1 & A2) & _). exfalso. destruct Ho as (Ho & _). assert (INR i <= INR 26) by (apply le_INR; lia). replace (INR 26) with 26 in * by (rewrite INR_IZR_INZ; reflexivity). unfold h in *. lra.
      - split; [|intros (E & _); discriminate]. intros ((A1 & A2) & _). exfalso. destruct Ho as (Ho & _). assert (INR i <= INR 26) by (apply le_INR; lia). replace (INR 26) with 26 in * by (rewrite INR_IZR_INZ; reflexivity). unfold h in *. lra. }
    assert (SF : forall f, In f sel <-> (f < List.length facets)%nat /\ exists k, (k < 4)%nat /\ Permutation (nth f facets []) (lat 8 8 1 (3 / 10) AX 27 row k)).
    { intros f. unfold sel, boundary_satisfying. rewrite filter_In. pose proof (selected 8 8 1 (3 / 10) P8 P8 P1 Hs facets Hen) as Sd. fold m in Sd. rewrite Sd. split.
      - intros ((a & i & j & k & Hf & Ho & HP & Ht) & _). split; [exact Hf|]. apply T in Ht; [|exact Ho]. destruct Ht as (-> & -> & ->). exists k. apply LO in Ho. split; [lia|exact HP].
      - intros (Hf & k & Hk & HP). split.
        + exists AX, 27%nat, row, k. assert (Ho : lat_ok 8 8 1 (3 / 10) AX 27 row k) by (apply LO; lia). split; [exact Hf|]. split; [exact Ho|]. split; [exact HP|]. now apply T.
        + apply Nat.eqb_eq. apply (end_owner 8 8 1 (3 / 10) P8 P8 P1 Hs _ 27 row k); rewrite ?E27, ?E4; [now right|lia|lia|exact HP]. }
    split; [|split].
    - intros E. destruct (lat_facet 8 8 1 (3 / 10) P8 P8 P1 Hs facets Hen AX 27 row 0) as (f & Hf & HP & _); [apply LO; lia|].
      assert (I : In f sel) by (apply SF; split; [exact Hf|]; exists 0%nat; split; [lia|exact HP]). rewrite E in I. destruct I.
    - intros f Hf. now apply SF in Hf.
    - intros n. split.
      + intros (f & Hf & Hn). apply SF in Hf. destruct Hf as (_ & k & Hk & HP). apply (Permutation_in n HP) in Hn. rewrite LL in Hn. cbn [In] in Hn.
        destruct Hn as [<-|[<-|[<-|[<-|[]]]]]; do 2 eexists; (split; [|split; [|reflexivity]]); lia.
      + intros (j & k & Hj & Hk & ->). set (k0 := if Nat.eq_dec k 4 then 3%nat else k). assert (Hk0 : (k0 < 4)%nat) by (unfold k0; destruct (Nat.eq_dec k 4); lia).
        destruct (lat_facet 8 8 1 (3 / 10) P8 P8 P1 Hs facets Hen AX 27 row k0) as (f & Hf & HP & _); [apply LO; lia|].
        exists f. split; [apply SF; split; [exact Hf|]; exists k0; split; [exact Hk0|exact HP]|]. apply (Permutation_in _ (Permutation_sym HP)). rewrite LL. cbn [In].
        unfold k0. destruct (Nat.eq_dec k 4) as [-> |]; destruct Hj as [-> | ->]; tauto. }
  destruct (SEL (8 - 3 / 10) 8 26%nat) as (Ne0 & Lt0 & No0).
  { intros j Hj. unfold h. split.
    - intros (A & _). destruct (Nat.eq_dec j 26) as [|Hne]; [assumption|exfalso]. assert (INR j <= INR 25) by (apply le_INR; lia). replace (INR 25) with 25 in * by (rewrite INR_IZR_INZ; reflexivity). lra.
    - intros ->. replace (INR 26) with 26 by (rewrite INR_IZR_INZ; reflexivity). lra. }
  { lia. }
  destruct (SEL 0 (3 / 10) 0%nat) as (Ne1 & Lt1 & No1).
  { intros j Hj. unfold h. split.
    - intros (_ & A). destruct j as [|j]; [reflexivity|exfalso]. rewrite S_INR in A. pose proof (pos_INR j). lra.
    - intros ->. cbn [INR]. lra. }
  { lia. }
  clear SEL.
  set (s0 := boundary_satisfying (m_p m) (m_t m) facets (points_in_range (8, 8) (8 - 3 / 10, 8) (0, 1))) in *.
  set (s1 := boundary_satisfying (m_p m) (m_t m) facets (points_in_range (8, 8) (0, 3 / 10) (0, 1))) in *.
  set (ds := boundary_satisfying (m_p m) (m_t m) facets (points_in_range (0, 5 / 100) (0, 8) (0, 1))).
  (* the supports *)
  destruct (end_face 8 8 1 (3 / 10) P8 P8 P1 Hs facets Hen (5 / 100) ltac:(lra)) as (G & _).
  destruct G as (GF & GN). { rewrite E27, I27. lra. } fold m in GF, GN.
  assert (DN : forall n, node_of facets ds n <-> (n < N)%nat /\ vx (at_node m n) = 0).
  { intros n. refine (iff_trans _ (GN n)). split.
    - intros (f & Hf & Hn). exists f. split; [|exact Hn]. unfold ds, boundary_satisfying in Hf. apply filter_In in Hf. apply Hf.
    - intros (f & Hf & Hn). exists f. split; [|exact Hn]. unfold ds, boundary_satisfying. apply filter_In. split; [exact Hf|].
      apply GF in Hf. destruct Hf as (Hf & Hall). destruct (facet_lat 8 8 1 (3 / 10) P8 P8 P1 Hs facets Hen f Hf) as (a & i & j & k & Ho & HP & _).
      assert (Q : forall n, In n (lat 8 8 1 (3 / 10) a i j k) -> vx (at_node m n) = 0) by (intros n' Hn'; apply Hall; now apply (Permutation_in n' (Permutation_sym HP))).
      assert (Pos : forall u v w, (u <= 27)%nat -> (v <= 27)%nat -> (w <= 4)%nat -> vx (at_node m (node_number D u v w)) = 0 -> u = 0%nat).
      { intros u v w A B C E. rewrite V in E by assumption. unfold vx in E. cbn [fst snd] in E. apply INR_eq. unfold h in E. cbn [INR]. lra. }
      apply LO in Ho. unfold lat in Q. rewrite E27, E4 in Q. fold D in Q. apply Nat.eqb_eq. destruct a.
      + assert (i = 0%nat) by (apply (Pos i j k); try lia; apply Q; cbn [In]; tauto). subst i.
        apply (end_owner 8 8 1 (3 / 10) P8 P8 P1 Hs _ 0 j k); rewrite ?E27, ?E4; [now left|lia|lia|exact HP].
      + assert (i + 1 = 0)%nat; [|lia]. apply (Pos (i + 1)%nat j k); try lia. apply Q. cbn [In]. tauto.
      + assert (i + 1 = 0)%nat; [|lia]. apply (Pos (i + 1)%nat j k); try lia. apply Q. cbn [In]. tauto. }
  (* the loaded nodes *)
  assert (N27 : N = (28 * 28 * 5)%nat).
  { pose proof (box_sizes 8 8 1 (3 / 10) P8 P8 P1 Hs) as (_ & _ & _ & _ & L). rewrite E27, E4 in L. exact L. }
  assert (NI : forall n, (n < N)%nat -> exists i j k, (i <= 27)%nat /\ (j <= 27)%nat /\ (k <= 4)%nat /\ n = node_number D i j k).
  { intros n Hn. pose proof (node_index 8 8 1 (3 / 10) P8 P8 P1 Hs n Hn) as I. rewrite E27, E4 in I. exact I. }
  assert (NL : forall i j k, (i <= 27)%nat -> (j <= 27)%nat -> (k <= 4)%nat -> (node_number D i j k < N)%nat).
  { intros i j k A B C. pose proof (nn_lt 8 8 1 (3 / 10) P8 P8 P1 Hs i j k) as I. rewrite E27, E4 in I. exact (I A B C). }
  assert (L0 : forall n, node_of facets s0 n <-> (n < N)%nat /\ vx (at_node m n) = 8 /\ 8 - h <= vy (at_node m n)).
  { intros n. rewrite No0. split.
    - intros (j & k & Hj & Hk & ->). split; [apply NL; lia|]. rewrite V by lia. unfold vx, vy. cbn [fst snd]. split; [apply X8; lia|apply Y0; lia].
    - intros (Hn & A & B). destruct (NI n Hn) as (i & j & k & Hi & Hj & Hk & ->). rewrite V in A, B by assumption. unfold vx, vy in A, B. cbn [fst snd] in A, B.
      apply X8 in A; [|assumption]. apply Y0 in B; [|assumption]. subst i. exists j, k. split; [lia|]. split; [exact Hk|reflexivity]. }
  assert (L1 : forall n, node_of facets s1 n <-> (n < N)%nat /\ vx (at_node m n) = 8 /\ vy (at_node m n) <= h).
  { intros n. rewrite No1. split.
    - intros (j & k & Hj & Hk & ->). split; [apply NL; lia|]. rewrite V by lia. unfold vx, vy. cbn [fst snd]. split; [apply X8; lia|apply Y1; lia].
    - intros (Hn & A & B). destruct (NI n Hn) as (i & j & k & Hi & Hj & Hk & ->). rewrite V in A, B by assumption. unfold vx, vy in A, B. cbn [fst snd] in A, B.
      apply X8 in A; [|assumption]. apply Y1 in B; [|assumption]. subst i. exists j, k. split; [lia|]. split; [exact Hk|reflexivity]. }
  (* running the constructor *)
  unfold toy2, Tags_model.elastic_from_mesh_tags. cbv zeta. cbn [Tags_model.mesh_tags]. fold m.
  change (Tags_model.dget (Tags_model.lit "design") [(Tags_model.lit "design", seq 0 (List.length (m_t m)))]) with (Some (seq 0 (List.length (m_t m)))).
  cbv iota. cbn [bind]. unfold toy2_boundaries. cbv zeta. fold m s0 s1 ds.
  destruct (tags2 ds s0 s1) as (T1 & T2). cbv zeta in T1, T2. rewrite T1, T2. cbn [Tags_model.index_arg bind facets_dir facets_load].
  destruct (facet_nodes_ok facets ds) as (dn & Ed). { intros i Hi. unfold ds, boundary_satisfying in Hi. apply filter_In in Hi. destruct Hi as (Hi & _). apply satisfying_in in Hi. apply Hi. }
  destruct (facet_nodes_ok facets (List.concat [s0; s1])) as (fn & Ef). { intros i Hi. cbn [List.concat] in Hi. rewrite app_nil_r in Hi. apply in_app_iff in Hi. destruct Hi; [now apply Lt0|now apply Lt1]. }
  rewrite Ed, Ef. cbn [bind Tags_model.check_dirs].
  assert (FN : forall n, In n fn <-> (n < N)%nat /\ vx (at_node m n) = 8 /\ (8 - h <= vy (at_node m n) \/ vy (at_node m n) <= h)).
  { intros n. rewrite (facet_nodes_iff _ _ _ n Ef). transitivity (node_of facets s0 n \/ node_of facets s1 n); [|rewrite L0, L1; tauto].
    unfold node_of. cbn [List.concat]. rewrite app_nil_r. split.
    - intros (i & Hi & Hn). apply in_app_iff in Hi. destruct Hi; [left|right]; now exists i.
    - intros [(i & Hi & Hn)|(i & Hi & Hn)]; exists i; (split; [apply in_app_iff; tauto|exact Hn]). }
  assert (EL : forall e, (e < List.length (m_t m))%nat -> forall n, In n (nth e (m_t m) []) -> (n < N)%nat).
  { intros e He n Hn. destruct (cell_at 8 8 1 (3 / 10) P8 P8 P1 Hs e He) as (i & j & k & A & B & C & _ & E). rewrite E27, E4 in *.
    pose proof (eq_ind _ (fun l => In n l) Hn _ E) as Hn'. pose proof (in_hex 8 8 1 (3 / 10) n i j k) as IH. rewrite E27, E4 in IH. apply IH in Hn'.
    destruct Hn' as (a & b & c & Ha & Hb & Hc & ->). apply NL; lia. }
  assert (TT : forall e, touches (m_t m) (opt_nodes (Some (Arr fn))) e <-> (e < List.length (m_t m))%nat /\ exists n, In n (nth e (m_t m) []) /\ vx (at_node m n) = 8 /\ (8 - h <= vy (at_node m n) \/ vy (at_node m n) <= h)).
  { intros e. unfold touches. cbn [opt_nodes arg_nodes]. split.
    - intros (A & n & B & C). split; [exact A|]. exists n. apply FN in B. tauto.
    - intros (A & n & B & C). split; [exact A|]. exists n. split; [|exact B]. apply FN. split; [now apply (EL e A)|exact C]. }
  destruct (C49_errors (m_t m) (3 * List.length (m_p m)) dofs_all (Some (Arr dn)) (Some (Arr fn)) None None (seq 0 (List.length (m_t m))) ltac:(intros ll; discriminate) ltac:(intros ll; discriminate) ltac:(intros ll; discriminate)) as (_ & Good).
  assert (K : forall e, kept_out (m_t m) (Some (Arr fn)) None None e <-> touches (m_t m) (opt_nodes (Some (Arr fn))) e).
  { intros e. unfold kept_out. intuition discriminate. }
  assert (CELL : forall i j k, (i < 27)%nat -> (j < 27)%nat -> (k < 4)%nat -> exists e, (e < List.length (m_t m))%nat /\ forall n, In n (nth e (m_t m) []) <-> In n (hex_of D i j k)).
  { intros i j k A B C. destruct (cell_of 8 8 1 (3 / 10) P8 P8 P1 Hs i j k ltac:(rewrite E27; exact A) ltac:(rewrite E27; exact B) ltac:(rewrite E4; exact C)) as (L & E).
    eexists. split; [exact L|]. intros n. rewrite E27, E4 in E. rewrite E27. fold D in E. split; intros Hn; [exact (eq_ind _ (fun l => In n l) Hn _ E)|exact (eq_ind_r (fun l => In n l) Hn E)]. }
  destruct Good as (dom & Edom).
  { intros [(_ & B)|[(B & _)|[(B & _)|B]]]; [|now apply B|discriminate|].
    - destruct (CELL 26%nat 26%nat 0%nat ltac:(lia) ltac:(lia) ltac:(lia)) as (e & He & HC). apply (B e). apply TT. split; [exact He|].
      exists (node_number D 27 27 0). split; [apply HC; unfold hex_of; cbv zeta; cbn [In Nat.add]; tauto|]. rewrite V by lia. unfold vx, vy. cbn [fst snd]. split; [apply X8; lia|left; apply Y0; lia].
    - destruct (CELL 0%nat 0%nat 0%nat ltac:(lia) ltac:(lia) ltac:(lia)) as (e & He & HC). specialize (B e ltac:(apply in_seq; lia)). apply K, TT in B.
      destruct B as (_ & n & Hn & HX & _). apply HC in Hn. pose proof (in_hex 8 8 1 (3 / 10) n 0 0 0) as IH. rewrite E27, E4 in IH. apply IH in Hn.
      destruct Hn as (a & b & c & Ha & Hb & Hc & ->). change (vx (at_node m (node_number D a b c)) = 8) in HX. rewrite V in HX by lia. unfold vx in HX. cbn [fst snd] in HX. apply X8 in HX; lia. }
  change ((fun _ : Tags_model.one_or_list Tags_model.name => dofs_all) (Tags_model.One (Tags_model.lit "all"))) with dofs_all. rewrite Edom. cbn [bind].
  unfold Tags_model.assemble_surface_forces. cbn [Tags_model.to_list List.length Nat.eqb andb Tags_model.assemble].
  change (Tags_model.dir_to_comp (Tags_model.lit "u^2")) with (Ok 1%nat). cbn [bind].
  destruct (Tags_model.load_vector area shape s0 1 (-1)) as [F0|] eqn:EF0; [|discriminate].
  destruct (Tags_model.load_vector area shape s1 1 1) as [F1|] eqn:EF1; [|discriminate]. cbn [bind].
  exists dom, F0, F1. split; [reflexivity|].
  assert (FA0 : Forall (Tags_props.facet_ok area shape N) s0) by (apply Forall_forall; intros f Hf; apply Harea; now apply Lt0).
  assert (FA1 : Forall (Tags_props.facet_ok area shape N) s1) by (apply Forall_forall; intros f Hf; apply Harea; now apply Lt1).
  destruct (Tags_props.load_vector_spec area shape N s0 1 (-1) F0 EF0 Ne0 FA0) as (R0 & U0).
  destruct (Tags_props.load_vector_spec area shape N s1 1 1 F1 EF1 Ne1 FA1) as (R1 & U1).
  split; [exact R0|]. split; [exact R1|]. split; [|split; [|split]].
  - intros n Hn. apply U0. intros f w Hf Hw. apply Hn. apply Hshape in Hw. assert (O : node_of facets s0 n) by now exists f. apply L0 in O. tauto.
  - intros n Hn. apply U1. intros f w Hf Hw. apply Hn. apply Hshape in Hw. assert (O : node_of facets s1 n) by now exists f. apply L1 in O. tauto.
  - intros k. assert (Efree : d_free_dofs dom = setdiff1d (seq 0 (3 * List.length (m_p m))) (dofs_all dn)).
    { unfold from_nodes in Edom. cbn [dirichlet_elems bind] in Edom. destruct (loaded_elems (m_t m) (Some (Arr fn))); [|discriminate]. cbn [bind loaded_elems] in Edom.
      destruct (setdiff1d (seq 0 (List.length (m_t m))) (olist a)); [discriminate|]. now injection Edom as <-. }
    rewrite Efree, setdiff_in, in_seq, dofs_all_in, (facet_nodes_iff facets ds dn _ Ed), DN. fold N. split.
    + intros (A & B). split; [lia|]. intros C. apply B. split; [|exact C]. apply Nat.div_lt_upper_bound; lia.
    + intros (A & B). split; [lia|]. intros (_ & C). exact (B C).
  - intros e. destruct (C49_loaded_not_designed _ _ _ _ _ _ _ _ _ Edom) as (_ & HD & _). rewrite HD, K, TT, in_seq. split.
    + intros (A & B). split; [lia|]. intros n Hn C. apply B. split; [lia|]. exists n. tauto.
    + intros (A & B). split; [lia|]. intros (_ & n & Hn & C). exact (B n Hn C).
Qed.
Print Assumptions C88_toy2.
