(* C80: the box meshes of mesh/toy_problem.py. *)
From Coq Require Import Lia.
From Verif Require Import Base Sums Mesh_model Mesh_spec Adj_model Adj_props EHelm_model EHelm_props Box_model.
Open Scope R_scope.
Open Scope list_scope.

(* ---------- specification ---------- *)
(* the axis-parallel box [a1,b1] x [a2,b2] x [a3,b3] *)
Definition in_box (lo hi q : vec3) : Prop :=
  vx lo <= vx q <= vx hi /\ vy lo <= vy q <= vy hi /\ vz lo <= vz q <= vz hi.
Definition inside_box (lo hi q : vec3) : Prop :=
  vx lo < vx q < vx hi /\ vy lo < vy q < vy hi /\ vz lo < vz q < vz hi.
(* the eight nodes of an element are the corners of the box lo, hi in
   scikit-fem's order *)
Definition is_brick (m : mesh3) (e : elem) (lo hi : vec3) : Prop :=
  map (fun n => nth n (m_p m) v0) e =
  map (fun a => let '(x, y, z) := a in
                (if x : bool then vx hi else vx lo, if y : bool then vy hi else vy lo, if z : bool then vz hi else vz lo))
      [(false, false, false); (false, true, false); (true, false, false); (false, false, true);
       (true, true, false); (false, true, true); (true, false, true); (true, true, true)].

(* ---------- ceil ---------- *)
Lemma Rceil_spec x : IZR (Rceil x) - 1 < x <= IZR (Rceil x).
Proof. unfold Rceil. rewrite opp_IZR. pose proof (Rfloor_spec (- x)). lra. Qed.
Lemma cells_spec len size : 0 < len -> 0 < size ->
  (1 <= cells len size)%nat /\ len <= INR (cells len size) * size /\ (INR (cells len size) - 1) * size < len.
Proof.
  intros Hl Hs. unfold cells. pose proof (Rceil_spec (len / size)) as (H1 & H2).
  assert (Hq : 0 < len / size) by now apply Rdiv_lt_0_compat.
  assert (Hz : (1 <= Rceil (len / size))%Z).
  { assert ((0 < Rceil (len / size))%Z); [|lia]. apply lt_IZR. lra. }
  assert (E : INR (Z.to_nat (Rceil (len / size))) = IZR (Rceil (len / size))).
  { rewrite INR_IZR_INZ, Z2Nat.id by lia. reflexivity. }
  assert (Hd : len = len / size * size) by (field; lra).
  split; [lia|]. rewrite E. split; [rewrite Hd at 1|rewrite Hd at 2]; nra.
Qed.

(* ---------- grids ---------- *)
Lemma nth_flat_map {A B} (f : A -> list B) w d (a : A) l : (forall x, In x l -> List.length (f x) = w) ->
  forall i j, (i < List.length l)%nat -> (j < w)%nat -> nth (j + w * i) (flat_map f l) d = nth j (f (nth i l a)) d.
Proof.
  induction l as [|x l IH]; intros Hw i j Hi Hj; [cbn in Hi; lia|].
  cbn [flat_map]. assert (Hx : List.length (f x) = w) by (apply Hw; now left). destruct i as [|i].
  - rewrite app_nth1 by lia. cbn [nth]. f_equal. lia.
  - rewrite app_nth2 by lia. cbn [nth]. rewrite <- (IH ltac:(intros; apply Hw; now right) i j) by (cbn [List.length] in Hi; lia).
    f_equal. lia.
Qed.
Lemma length_flat_map {A B} (f : A -> list B) w l : (forall x, In x l -> List.length (f x) = w) ->
  List.length (flat_map f l) = (w * List.length l)%nat.
Proof.
  induction l as [|x l IH]; intros Hw; [cbn; lia|]. cbn [flat_map List.length]. rewrite app_length, IH by (intros; apply Hw; now right).
  rewrite Hw by now left. lia.
Qed.
Section grid.
  Context {A : Type} (ny nx nz : nat) (f : nat -> nat -> nat -> A) (d : A).
  Lemma row_length k : List.length (flat_map (fun i => map (fun j => f i j k) (seq 0 ny)) (seq 0 nx)) = (ny * nx)%nat.
  Proof. rewrite (length_flat_map _ ny), seq_length; [reflexivity|]. intros. now rewrite map_length, seq_length. Qed.
  Lemma grid_length : List.length (grid ny nx nz f) = (ny * nx * nz)%nat.
  Proof. unfold grid. rewrite (length_flat_map _ (ny * nx)), seq_length; [reflexivity|]. intros. apply row_length. Qed.
  Lemma grid_nth i j k : (i < nx)%nat -> (j < ny)%nat -> (k < nz)%nat -> nth (j + ny * (i + nx * k)) (grid ny nx nz f) d = f i j k.
  Proof.
    intros Hi Hj Hk. unfold grid. replace (j + ny * (i + nx * k))%nat with ((j + ny * i) + (ny * nx) * k)%nat by lia.
    rewrite (nth_flat_map _ (ny * nx) d 0%nat); [|intros; apply row_length|now rewrite seq_length|nia].
    rewrite seq_nth by exact Hk. rewrite (nth_flat_map _ ny d 0%nat); [|intros; now rewrite map_length, seq_length|now rewrite seq_length|exact Hj].
    rewrite seq_nth by exact Hi. cbn [Nat.add]. rewrite (nth_indep _ d (f i 0%nat k)) by (now rewrite map_length, seq_length).
    rewrite (map_nth (fun j => f i j k)). rewrite seq_nth by exact Hj. reflexivity.
  Qed.
End grid.
Lemma grid_index ny nx nz n : (n < ny * nx * nz)%nat -> exists i j k, (i < nx)%nat /\ (j < ny)%nat /\ (k < nz)%nat /\ n = (j + ny * (i + nx * k))%nat.
Proof.
  intros H. assert (Hy : (ny <> 0)%nat) by (intros ->; cbn in H; lia). assert (Hx : (nx <> 0)%nat) by (intros ->; rewrite Nat.mul_0_r in H; cbn in H; lia).
  exists ((n / ny) mod nx)%nat, (n mod ny)%nat, (n / ny / nx)%nat.
  split; [now apply Nat.mod_upper_bound|]. split; [now apply Nat.mod_upper_bound|].
  pose proof (Nat.div_mod n ny Hy). pose proof (Nat.div_mod (n / ny) nx Hx). split; [|nia].
  apply Nat.div_lt_upper_bound; [exact Hx|]. apply Nat.div_lt_upper_bound; [exact Hy|]. nia.
Qed.
Lemma lattice_inj ny nx i j k i' j' k' : (i < nx)%nat -> (j < ny)%nat -> (i' < nx)%nat -> (j' < ny)%nat ->
  (j + ny * (i + nx * k) = j' + ny * (i' + nx * k'))%nat -> i = i' /\ j = j' /\ k = k'.
Proof.
  intros Hi Hj Hi' Hj' E.
  assert (j = j').
  { assert (E2 : (j + ny * (i + nx * k)) mod ny = (j' + ny * (i' + nx * k')) mod ny) by now rewrite E.
    rewrite !(Nat.mul_comm ny), !Nat.mod_add, !Nat.mod_small in E2 by lia. exact E2. }
  subst j'. assert (E1 : (i + nx * k = i' + nx * k')%nat) by nia.
  assert (i = i').
  { assert (E2 : (i + nx * k) mod nx = (i' + nx * k') mod nx) by now rewrite E1.
    rewrite !(Nat.mul_comm nx), !Nat.mod_add, !Nat.mod_small in E2 by lia. exact E2. }
  subst i'. repeat split; try reflexivity. nia.
Qed.

  Lemma linspace_step len n k : (1 <= n)%nat -> linspace len n (k + 1) = linspace len n k + len / INR n.
  Proof. intros Hn. unfold linspace. rewrite plus_INR. cbn [INR]. lra. Qed.
  Lemma step_pos len n : 0 < len -> (1 <= n)%nat -> 0 < len / INR n.
  Proof. intros Hl Hn. apply Rdiv_lt_0_compat; [exact Hl|]. apply lt_0_INR. lia. Qed.
  Lemma linspace_le len n a b : 0 < len -> (1 <= n)%nat -> (linspace len n a < linspace len n b <-> (a < b)%nat).
  Proof.
    intros Hl Hn. pose proof (step_pos len n Hl Hn). unfold linspace. split; intros H1.
    - apply INR_lt. apply (Rmult_lt_reg_r (len / INR n)); assumption.
    - apply Rmult_lt_compat_r; [assumption|]. now apply lt_INR.
  Qed.
  (* which interval contains x *)
  Lemma interval len n x : 0 < len -> (1 <= n)%nat -> 0 <= x <= len -> exists i, (i < n)%nat /\ linspace len n i <= x <= linspace len n (i + 1).
  Proof.
    intros Hl Hn (H1 & H2). pose proof (step_pos len n Hl Hn) as Hp.
    assert (G : forall b, (b <= n)%nat -> x <= linspace len n b -> (1 <= b)%nat -> exists i, (i < b)%nat /\ linspace len n i <= x <= linspace len n (i + 1)).
    { induction b as [|b IH]; intros Hb Hxb H; [lia|]. destruct (Rle_dec (linspace len n b) x) as [Hle|Hgt].
      - exists b. split; [lia|]. replace (b + 1)%nat with (S b) by lia. now split.
      - destruct b as [|b]; [exfalso; unfold linspace in Hgt; cbn [INR] in Hgt; lra|].
        destruct IH as (i & Hi & Hx'); [lia|lra|lia|]. exists i. split; [lia|exact Hx']. }
    apply (G n); [lia| |lia]. unfold linspace. replace (INR n * (len / INR n)) with len; [exact H2|]. field. apply not_0_INR. lia.
  Qed.


(* ---------- the mesh ---------- *)
Section box.
  Variables (xl yl zl size : R).
  Hypothesis (Hx : 0 < xl) (Hy : 0 < yl) (Hz : 0 < zl) (Hs : 0 < size).
  Let nx := cells xl size. Let ny := cells yl size. Let nz := cells zl size.
  Let d := mkDims nx ny nz.
  Let m := create_box_hex xl yl zl size.
  Lemma nx_pos : (1 <= nx)%nat. Proof. now apply cells_spec. Qed.
  Lemma ny_pos : (1 <= ny)%nat. Proof. now apply cells_spec. Qed.
  Lemma nz_pos : (1 <= nz)%nat. Proof. now apply cells_spec. Qed.
  Definition corner_at (i j k : nat) : vec3 := (linspace xl nx i, linspace yl ny j, linspace zl nz k).
  Lemma node_at i j k : (i <= nx)%nat -> (j <= ny)%nat -> (k <= nz)%nat -> nth (node_number d i j k) (m_p m) v0 = corner_at i j k.
  Proof.
    intros Hi Hj Hk. unfold m, create_box_hex. cbn [m_p]. unfold box_nodes, node_number. cbn [d_x d_y d_z].
    exact (grid_nth (ny + 1) (nx + 1) (nz + 1) (fun i j k => (linspace xl nx i, linspace yl ny j, linspace zl nz k)) v0 i j k ltac:(lia) ltac:(lia) ltac:(lia)).
  Qed.
  Lemma hex_kept i j k : (i < nx)%nat -> (j < ny)%nat -> (k < nz)%nat -> fix_hex1 (m_p m) (hex_of d i j k) = hex_of d i j k.
  Proof.
    intros Hi Hj Hk. assert (J : 0 < hex_jac (m_p m) (hex_of d i j k)).
    { unfold hex_jac, nd, hex_of, pt. cbn [nth]. rewrite !node_at by lia. unfold corner_at.
      unfold triple, vdot, vcross, vsub, vx, vy, vz. cbn [fst snd].
      rewrite !linspace_step by (apply nx_pos || apply ny_pos || apply nz_pos).
      pose proof (step_pos xl nx Hx nx_pos). pose proof (step_pos yl ny Hy ny_pos). pose proof (step_pos zl nz Hz nz_pos).
      match goal with |- 0 < ?e => replace e with ((yl / INR ny) * ((zl / INR nz) * (xl / INR nx))) by ring end.
      apply Rmult_lt_0_compat; [assumption|]. apply Rmult_lt_0_compat; assumption. }
    unfold fix_hex1, hex_of. cbv zeta. destruct (Rltb _ 0) eqn:E; [|reflexivity]. apply Rltb_true in E.
    unfold hex_of in J. cbv zeta in J. lra.
  Qed.
  Lemma cells_kept : m_t m = box_cells d.
  Proof.
    unfold m, create_box_hex. cbn [m_t]. unfold fix_hexahedron_orientation. change (mkDims _ _ _) with d.
    assert (G : forall l, (forall e, In e l -> exists i j k, (i < nx)%nat /\ (j < ny)%nat /\ (k < nz)%nat /\ e = hex_of d i j k) -> map (fix_hex1 (box_nodes xl yl zl d)) l = l).
    { induction l as [|e l IH]; intros H; [reflexivity|]. cbn [map]. rewrite IH by (intros; apply H; now right). f_equal.
      destruct (H e (or_introl eq_refl)) as (i & j & k & Hi & Hj & Hk & ->). exact (hex_kept i j k Hi Hj Hk). }
    apply G. intros e He. unfold box_cells, grid in He. apply in_flat_map in He. destruct He as (k & Hk & He).
    apply in_flat_map in He. destruct He as (i & Hi & He). apply in_map_iff in He. destruct He as (j & <- & Hj).
    apply in_seq in Hi, Hj, Hk. cbn [d_x d_y d_z d] in *. exists i, j, k. repeat split; lia.
  Qed.
  Lemma cells_length : List.length (m_t m) = (nx * ny * nz)%nat.
  Proof. rewrite cells_kept. unfold box_cells. rewrite grid_length. cbn [d_x d_y d_z d]. lia. Qed.
  Lemma cell_at e : (e < List.length (m_t m))%nat -> exists i j k, (i < nx)%nat /\ (j < ny)%nat /\ (k < nz)%nat /\
    e = (j + ny * (i + nx * k))%nat /\ nth e (m_t m) [] = hex_of d i j k.
  Proof.
    intros He. rewrite cells_length in He. destruct (grid_index ny nx nz e) as (i & j & k & Hi & Hj & Hk & E); [lia|].
    exists i, j, k. repeat (split; [assumption|]). rewrite cells_kept, E. unfold box_cells. cbn [d_x d_y d_z d].
    exact (grid_nth ny nx nz (hex_of d) [] i j k Hi Hj Hk).
  Qed.
  Lemma cell_of i j k : (i < nx)%nat -> (j < ny)%nat -> (k < nz)%nat ->
    (j + ny * (i + nx * k) < List.length (m_t m))%nat /\ nth (j + ny * (i + nx * k)) (m_t m) [] = hex_of d i j k.
  Proof.
    intros Hi Hj Hk. split.
    { rewrite cells_length. assert (A1 : (nx * (k + 1) <= nx * nz)%nat) by (apply Nat.mul_le_mono_l; lia).
      assert (A2 : (ny * (i + nx * k + 1) <= ny * (nx * nz))%nat) by (apply Nat.mul_le_mono_l; lia). lia. }
    rewrite cells_kept. unfold box_cells. cbn [d_x d_y d_z d].
    exact (grid_nth ny nx nz (hex_of d) [] i j k Hi Hj Hk).
  Qed.
  Lemma brick i j k : (i < nx)%nat -> (j < ny)%nat -> (k < nz)%nat -> is_brick m (hex_of d i j k) (corner_at i j k) (corner_at (i + 1) (j + 1) (k + 1)).
  Proof.
    intros Hi Hj Hk. unfold is_brick, hex_of. cbv zeta. cbn [map]. rewrite !node_at by lia. reflexivity.
  Qed.
  Theorem box_sizes : (1 <= nx)%nat /\ (1 <= ny)%nat /\ (1 <= nz)%nat /\
    List.length (m_t m) = (nx * ny * nz)%nat /\ List.length (m_p m) = ((nx + 1) * (ny + 1) * (nz + 1))%nat.
  Proof.
    split; [apply nx_pos|]. split; [apply ny_pos|]. split; [apply nz_pos|]. split; [apply cells_length|].
    unfold m, create_box_hex. cbn [m_p]. unfold box_nodes. rewrite grid_length. cbn [d_x d_y d_z]. fold nx ny nz. lia.
  Qed.

  Lemma node_inj i j k i' j' k' : (i <= nx)%nat -> (j <= ny)%nat -> (i' <= nx)%nat -> (j' <= ny)%nat ->
    node_number d i j k = node_number d i' j' k' -> i = i' /\ j = j' /\ k = k'.
  Proof. intros Hi Hj Hi' Hj' E. unfold node_number in E. cbn [d_x d_y d_z d] in E. apply lattice_inj in E; lia. Qed.
  (* the nodes of a cell as lattice points *)
  Lemma in_hex n i j k : In n (hex_of d i j k) <-> exists a b c, (a = i \/ a = i + 1)%nat /\ (b = j \/ b = j + 1)%nat /\ (c = k \/ c = k + 1)%nat /\ n = node_number d a b c.
  Proof.
    unfold hex_of. cbv zeta. split.
    - intros H. cbn [In] in H.
      destruct H as [<-|[<-|[<-|[<-|[<-|[<-|[<-|[<-|[]]]]]]]]]; do 3 eexists; (split; [|split; [|split; [|reflexivity]]]); tauto.
    - intros (a & b & c & [-> | -> ] & [-> | -> ] & [-> | -> ] & ->); cbn [In]; tauto.
  Qed.
  Lemma box_is_skfem : skfem_hex_mesh (m_t m).
  Proof.
    split.
    - rewrite Forall_forall. intros e He. apply In_nth with (d := []) in He. destruct He as (q & Hq & <-).
      destruct (cell_at q Hq) as (i & j & k & Hi & Hj & Hk & _ & Eq). change (List.length (nth q (m_t m) ([] : elem)) = 8%nat /\ NoDup (nth q (m_t m) ([] : elem))). rewrite Eq. split; [reflexivity|].
      assert (Ne : forall a b c a' b' c', (a <= nx)%nat -> (b <= ny)%nat -> (a' <= nx)%nat -> (b' <= ny)%nat -> (a, b, c) <> (a', b', c') ->
        node_number d a b c <> node_number d a' b' c') by (intros a b c a' b' c' L1 L2 L3 L4 H E; apply node_inj in E; auto; destruct E as (-> & -> & ->); now apply H).
      unfold hex_of. cbv zeta.
      repeat (constructor; [cbn [In]; intros H; repeat (destruct H as [H|H]; [revert H; apply Ne; try lia; intros E; injection E; lia|]); exact H|]).
      constructor.
    - intros a b Ha Hb Hab. destruct (cell_at a Ha) as (i & j & k & Hi & Hj & Hk & Ea & Ha').
      destruct (cell_at b Hb) as (i' & j' & k' & Hi' & Hj' & Hk' & Eb & Hb').
      change (exists F, In F skfem_facets /\ forall n, In n (nth a (m_t m) ([] : elem)) -> In n (nth b (m_t m) ([] : elem)) -> In n (map (nd (nth a (m_t m) ([] : elem))) F)).
      rewrite Ha', Hb'.
      assert (Hd : (i <> i' \/ j <> j' \/ k <> k')%nat) by (destruct (Nat.eq_dec i i'), (Nat.eq_dec j j'), (Nat.eq_dec k k'); subst; tauto).
      assert (Common : forall n, In n (hex_of d i j k) -> In n (hex_of d i' j' k') -> exists u v w, n = node_number d u v w /\
        (u = i \/ u = i + 1)%nat /\ (v = j \/ v = j + 1)%nat /\ (w = k \/ w = k + 1)%nat /\
        (u = i' \/ u = i' + 1)%nat /\ (v = j' \/ v = j' + 1)%nat /\ (w = k' \/ w = k' + 1)%nat).
      { intros n H1 H2. apply in_hex in H1, H2. destruct H1 as (u & v & w & U1 & V1 & W1 & ->). destruct H2 as (u' & v' & w' & U2 & V2 & W2 & E).
        apply node_inj in E; try lia. destruct E as (-> & -> & ->). exists u', v', w'. tauto. }
      assert (Fc : forall F, (forall u v w, (u = i \/ u = i + 1)%nat -> (v = j \/ v = j + 1)%nat -> (w = k \/ w = k + 1)%nat ->
          (u = i' \/ u = i' + 1)%nat -> (v = j' \/ v = j' + 1)%nat -> (w = k' \/ w = k' + 1)%nat -> In (node_number d u v w) (map (nd (hex_of d i j k)) F)) ->
          forall n, In n (hex_of d i j k) -> In n (hex_of d i' j' k') -> In n (map (nd (hex_of d i j k)) F)).
      { intros F HF n H1 H2. destruct (Common n H1 H2) as (u & v & w & -> & U1 & V1 & W1 & U2 & V2 & W2). now apply HF. }
      destruct (Nat.lt_trichotomy i i') as [L|[L|L]].
      + exists [2; 4; 7; 6]%nat. split; [cbn; tauto|]. apply Fc. intros u v w U1 V1 W1 U2 V2 W2. assert (u = i + 1)%nat as -> by lia.
        unfold hex_of, nd. cbn [map nth In]. destruct V1 as [-> | -> ], W1 as [-> | -> ]; tauto.
      + destruct (Nat.lt_trichotomy j j') as [L2|[L2|L2]].
        * exists [1; 5; 7; 4]%nat. split; [cbn; tauto|]. apply Fc. intros u v w U1 V1 W1 U2 V2 W2. assert (v = j + 1)%nat as -> by lia.
          unfold hex_of, nd. cbn [map nth In]. destruct U1 as [-> | -> ], W1 as [-> | -> ]; tauto.
        * destruct (Nat.lt_trichotomy k k') as [L3|[L3|L3]]; [|lia|].
          -- exists [3; 6; 7; 5]%nat. split; [cbn; tauto|]. apply Fc. intros u v w U1 V1 W1 U2 V2 W2. assert (w = k + 1)%nat as -> by lia.
             unfold hex_of, nd. cbn [map nth In]. destruct U1 as [-> | -> ], V1 as [-> | -> ]; tauto.
          -- exists [0; 1; 4; 2]%nat. split; [cbn; tauto|]. apply Fc. intros u v w U1 V1 W1 U2 V2 W2. assert (w = k)%nat as -> by lia.
             unfold hex_of, nd. cbn [map nth In]. destruct U1 as [-> | -> ], V1 as [-> | -> ]; tauto.
        * exists [0; 2; 6; 3]%nat. split; [cbn; tauto|]. apply Fc. intros u v w U1 V1 W1 U2 V2 W2. assert (v = j)%nat as -> by lia.
          unfold hex_of, nd. cbn [map nth In]. destruct U1 as [-> | -> ], W1 as [-> | -> ]; tauto.
      + exists [0; 3; 5; 1]%nat. split; [cbn; tauto|]. apply Fc. intros u v w U1 V1 W1 U2 V2 W2. assert (u = i)%nat as -> by lia.
        unfold hex_of, nd. cbn [map nth In]. destruct V1 as [-> | -> ], W1 as [-> | -> ]; tauto.
  Qed.
End box.

(* ---------- C80 ---------- *)
(* the number of elements in a direction is the smallest one with edges not
   longer than the mesh size *)
Theorem C80_fewest_cells : forall len size, 0 < len -> 0 < size ->
  (1 <= cells len size)%nat /\ len / INR (cells len size) <= size /\
  forall n, (1 <= n)%nat -> len / INR n <= size -> (cells len size <= n)%nat.
Proof.
  intros len size Hl Hs. destruct (cells_spec len size Hl Hs) as (H1 & H2 & H3). split; [exact H1|].
  assert (P : 0 < INR (cells len size)) by (apply lt_0_INR; lia). split.
  - apply (Rmult_le_reg_l (INR (cells len size))); [exact P|]. replace (INR (cells len size) * (len / INR (cells len size))) with len by (field; lra). lra.
  - intros n Hn Hle. destruct (Nat.le_gt_cases (cells len size) n) as [|Hgt]; [assumption|exfalso].
    assert (Pn : 0 < INR n) by (apply lt_0_INR; lia). assert (L : len <= INR n * size).
    { replace len with (INR n * (len / INR n)) by (field; lra). apply Rmult_le_compat_l; lra. }
    assert (INR n + 1 <= INR (cells len size)) by (rewrite <- S_INR; apply le_INR; lia). nra.
Qed.
Print Assumptions C80_fewest_cells.

(* Every element is a brick of the same size, edges at most mesh_size; every point
   of the box is in one of them, no point is inside two. *)
Theorem C80_bricks : forall xl yl zl size, 0 < xl -> 0 < yl -> 0 < zl -> 0 < size ->
  let m := create_box_hex xl yl zl size in
  let h := (xl / INR (cells xl size), yl / INR (cells yl size), zl / INR (cells zl size)) in
  List.length (m_t m) = (cells xl size * cells yl size * cells zl size)%nat /\
  List.length (m_p m) = ((cells xl size + 1) * (cells yl size + 1) * (cells zl size + 1))%nat /\
  exists lo : nat -> vec3,
  (forall e, (e < List.length (m_t m))%nat ->
     is_brick m (nth e (m_t m) []) (lo e) (vadd (lo e) h) /\ in_box v0 (xl, yl, zl) (lo e) /\ in_box v0 (xl, yl, zl) (vadd (lo e) h)) /\
  (forall q, in_box v0 (xl, yl, zl) q -> exists e, (e < List.length (m_t m))%nat /\ in_box (lo e) (vadd (lo e) h) q) /\
  (forall q e e', (e < List.length (m_t m))%nat -> (e' < List.length (m_t m))%nat ->
     inside_box (lo e) (vadd (lo e) h) q -> inside_box (lo e') (vadd (lo e') h) q -> e = e').
Proof.
  intros xl yl zl size Hx Hy Hz Hs m h. destruct (box_sizes xl yl zl size Hx Hy Hz Hs) as (Px & Py & Pz & L1 & L2).
  split; [exact L1|]. split; [exact L2|].
  set (nx := cells xl size) in *. set (ny := cells yl size) in *. set (nz := cells zl size) in *.
  pose proof (step_pos xl nx Hx Px) as Sx. pose proof (step_pos yl ny Hy Py) as Sy. pose proof (step_pos zl nz Hz Pz) as Sz.
  exists (fun e => corner_at xl yl zl size ((e / ny) mod nx) (e mod ny) (e / ny / nx)).
  assert (Dec : forall i j k, (i < nx)%nat -> (j < ny)%nat ->
    (((j + ny * (i + nx * k)) / ny) mod nx = i /\ (j + ny * (i + nx * k)) mod ny = j /\ (j + ny * (i + nx * k)) / ny / nx = k)%nat).
  { intros i j k Hi Hj.
    assert (Q : ((j + ny * (i + nx * k)) / ny = i + nx * k)%nat) by (rewrite (Nat.mul_comm ny), Nat.div_add, Nat.div_small by lia; lia).
    rewrite Q. split; [rewrite (Nat.mul_comm nx), Nat.mod_add, Nat.mod_small by lia; reflexivity|].
    split; [rewrite (Nat.mul_comm ny), Nat.mod_add, Nat.mod_small by lia; reflexivity|].
    rewrite (Nat.mul_comm nx), Nat.div_add, Nat.div_small by lia. lia. }
  assert (Hi : forall i j k, vadd (corner_at xl yl zl size i j k) h = corner_at xl yl zl size (i + 1) (j + 1) (k + 1)).
  { intros i j k. unfold vadd, corner_at, h. fold nx ny nz. rewrite !linspace_step by assumption. reflexivity. }
  assert (Top : forall len n i, 0 < len -> (1 <= n)%nat -> (i <= n)%nat -> 0 <= linspace len n i <= len).
  { intros len n i Hl Hn Hle. pose proof (step_pos len n Hl Hn). unfold linspace. assert (0 <= INR i) by apply pos_INR.
    assert (INR i <= INR n) by now apply le_INR. assert (len = INR n * (len / INR n)) by (field; apply not_0_INR; lia). split; nra. }
  unfold m in *. clear m.
  split; [|split].
  - intros e He. destruct (cell_at xl yl zl size Hx Hy Hz Hs e He) as (i & j & k & Li & Lj & Lk & -> & ->).
    fold nx ny nz in Li, Lj, Lk |- *. destruct (Dec i j k Li Lj) as (-> & -> & ->). rewrite Hi.
    split; [exact (brick xl yl zl size i j k Li Lj Lk)|].
    split; (split; [|split]); unfold corner_at, vx, vy, vz, v0; cbn [fst snd]; fold nx ny nz; apply Top; auto; lia.
  - intros q (Q1 & Q2 & Q3). unfold vx, vy, vz, v0 in Q1, Q2, Q3. cbn [fst snd] in Q1, Q2, Q3.
    destruct (interval xl nx (vx q) Hx Px Q1) as (i & Li & Ii). destruct (interval yl ny (vy q) Hy Py Q2) as (j & Lj & Ij).
    destruct (interval zl nz (vz q) Hz Pz Q3) as (k & Lk & Ik). exists (j + ny * (i + nx * k))%nat.
    split; [exact (proj1 (cell_of xl yl zl size Hx Hy Hz Hs i j k Li Lj Lk))|]. destruct (Dec i j k Li Lj) as (-> & -> & ->).
    rewrite Hi. split; [|split]; assumption.
  - intros q e e' He He' (A1 & A2 & A3) (B1 & B2 & B3).
    destruct (cell_at xl yl zl size Hx Hy Hz Hs e He) as (i & j & k & Li & Lj & Lk & -> & _).
    destruct (cell_at xl yl zl size Hx Hy Hz Hs e' He') as (i' & j' & k' & Li' & Lj' & Lk' & -> & _).
    fold nx ny nz in Li, Lj, Lk, Li', Lj', Lk', A1, A2, A3, B1, B2, B3 |- *. destruct (Dec i j k Li Lj) as (D1 & D2 & D3). destruct (Dec i' j' k' Li' Lj') as (D1' & D2' & D3').
    rewrite D1, D2, D3, Hi in A1, A2, A3. rewrite D1', D2', D3', Hi in B1, B2, B3.
    unfold corner_at, vx, vy, vz in A1, A2, A3, B1, B2, B3. cbn [fst snd] in A1, A2, A3, B1, B2, B3. fold nx ny nz in A1, A2, A3, B1, B2, B3.
    assert (U : forall len n a b x, 0 < len -> (1 <= n)%nat -> linspace len n a < x < linspace len n (a + 1) -> linspace len n b < x < linspace len n (b + 1) -> a = b).
    { intros len n a b x Hl Hn X1 X2. assert ((a < b + 1)%nat) by (apply (linspace_le len n); auto; lra).
      assert ((b < a + 1)%nat) by (apply (linspace_le len n); auto; lra). lia. }
    rewrite (U xl nx i i' _ Hx Px A1 B1), (U yl ny j j' _ Hy Py A2 B2), (U zl nz k k' _ Hz Pz A3 B3). reflexivity.
Qed.
Print Assumptions C80_bricks.

(* The orientation repair leaves the mesh as scikit-fem made it. *)
Theorem C80_repair_does_nothing : forall xl yl zl size, 0 < xl -> 0 < yl -> 0 < zl -> 0 < size ->
  m_t (create_box_hex xl yl zl size) = box_cells (mkDims (cells xl size) (cells yl size) (cells zl size)).
Proof. intros xl yl zl size Hx Hy Hz Hs. exact (cells_kept xl yl zl size Hx Hy Hz Hs). Qed.
Print Assumptions C80_repair_does_nothing.

Lemma pt_node m n : pt (m_p m) n = nth n (m_p m) v0. Proof. reflexivity. Qed.
Lemma brick_corners m e lo hi : is_brick m e lo hi -> forall k, (k < 8)%nat -> pt (m_p m) (nd e k) =
  nth k [(vx lo, vy lo, vz lo); (vx lo, vy hi, vz lo); (vx hi, vy lo, vz lo); (vx lo, vy lo, vz hi);
         (vx hi, vy hi, vz lo); (vx lo, vy hi, vz hi); (vx hi, vy lo, vz hi); (vx hi, vy hi, vz hi)] v0.
Proof.
  intros H k Hk. unfold is_brick in H. cbn [map] in H. rewrite <- H. unfold pt, nd.
  assert (L : List.length e = 8%nat) by (apply (f_equal (@List.length _)) in H; now rewrite map_length in H).
  transitivity (nth k (map (fun n => nth n (m_p m) v0) e) (nth 0%nat (m_p m) v0)).
  - symmetry. apply (map_nth (fun n => nth n (m_p m) v0)).
  - apply nth_indep. rewrite map_length, L. exact Hk.
Qed.

(* The reported volume of every element is 5/6 of the true one (C52), hence equal
   for all elements. *)
Theorem C80_volumes_refuted : forall xl yl zl size, 0 < xl -> 0 < yl -> 0 < zl -> 0 < size ->
  let m := create_box_hex xl yl zl size in
  let h := xl / INR (cells xl size) * (yl / INR (cells yl size)) * (zl / INR (cells zl size)) in
  (forall e, (e < List.length (m_t m))%nat -> nth e (elements_volume_hex (m_p m) (m_t m)) 0 = 5 / 6 * h) /\
  rsum (elements_volume_hex (m_p m) (m_t m)) = 5 / 6 * (xl * yl * zl).
Proof.
  intros xl yl zl size Hx Hy Hz Hs m h.
  destruct (C80_bricks xl yl zl size Hx Hy Hz Hs) as (L1 & _ & lo & HB & _). fold m in L1, HB.
  destruct (box_sizes xl yl zl size Hx Hy Hz Hs) as (Px & Py & Pz & _).
  pose proof (step_pos xl _ Hx Px) as Sx. pose proof (step_pos yl _ Hy Py) as Sy. pose proof (step_pos zl _ Hz Pz) as Sz.
  assert (V : forall e, (e < List.length (m_t m))%nat -> hex_vol (m_p m) (nth e (m_t m) []) = 5 / 6 * h).
  { intros e He. destruct (HB e He) as (B & _). unfold hex_vol. cbv zeta.
    rewrite !(brick_corners _ _ _ _ B) by lia. cbn [nth]. unfold h.
    set (hx := xl / INR (cells xl size)) in *. set (hy := yl / INR (cells yl size)) in *. set (hz := zl / INR (cells zl size)) in *.
    destruct (lo e) as [[a1 a2] a3]. unfold vadd, tet_abs, triple, vdot, vcross, vsub, vx, vy, vz. cbn [fst snd].
    assert (P : 0 < hx * hy * hz) by (apply Rmult_lt_0_compat; [apply Rmult_lt_0_compat|]; assumption).
    repeat match goal with |- context [Rabs ?e] =>
      first [ assert (E : Rabs e = hx * hy * hz) by (replace e with (hx * hy * hz) by ring; apply Rabs_right; lra)
            | assert (E : Rabs e = hx * hy * hz) by (replace e with (- (hx * hy * hz)) by ring; rewrite Rabs_Ropp; apply Rabs_right; lra)
            | assert (E : Rabs e = 0) by (rewrite <- Rabs_R0; f_equal; ring) ]; rewrite E; clear E end.
    field. }
  split.
  - intros e He. rewrite <- (V e He). unfold elements_volume_hex.
    rewrite (nth_indep _ 0 (hex_vol (m_p m) [])) by (now rewrite map_length). apply map_nth.
  - assert (G : forall l c, (forall v, In v l -> v = c) -> rsum l = INR (List.length l) * c).
    { induction l as [|v l IH]; intros c H; [cbn; ring|]. cbn [List.length]. rewrite S_INR. change (rsum (v :: l)) with (v + rsum l).
      rewrite (IH c) by (intros; apply H; now right). rewrite (H v) by now left. ring. }
    rewrite (G _ (5 / 6 * h)).
    + unfold elements_volume_hex. rewrite map_length, L1, !mult_INR. unfold h. field. repeat split; apply not_0_INR; lia.
    + intros v Hv. unfold elements_volume_hex in Hv. apply in_map_iff in Hv. destruct Hv as (t & <- & Ht).
      apply In_nth with (d := ([] : elem)) in Ht. destruct Ht as (e & He & <-). now apply V.
Qed.
Print Assumptions C80_volumes_refuted.

(* The element based Helmholtz filter does nothing on any of these meshes. *)
Theorem C80_element_helmholtz_identity : forall xl yl zl size, 0 < xl -> 0 < yl -> 0 < zl -> 0 < size ->
  let m := create_box_hex xl yl zl size in
  forall r rho x, eh_forward (mkE Hex (m_t m) (m_p m)) r rho x ->
  forall e, (e < List.length (m_t m))%nat -> x e = rho e.
Proof.
  intros xl yl zl size Hx Hy Hz Hs m r rho x Hf e He.
  pose proof (C80_bricks xl yl zl size Hx Hy Hz Hs) as HB. cbv zeta in HB. fold m in HB. destruct HB as (L1 & _ & lo & HB & _).
  destruct (box_sizes xl yl zl size Hx Hy Hz Hs) as (Px & Py & Pz & _).
  pose proof (step_pos xl _ Hx Px) as Sx. pose proof (step_pos yl _ Hy Py) as Sy. pose proof (step_pos zl _ Hz Pz) as Sz.
  apply (C79_refuted_hexahedra (mkE Hex (m_t m) (m_p m)) r); [reflexivity|exact (box_is_skfem xl yl zl size Hx Hy Hz Hs)| |exact Hf|exact He].
  split; [unfold nel; cbn [e_t]; lia|]. intros i Hi. unfold nel in Hi. cbn [e_t] in Hi. destruct (HB i Hi) as (B & _).
  set (hx := xl / INR (cells xl size)) in *. set (hy := yl / INR (cells yl size)) in *. set (hz := zl / INR (cells zl size)) in *.
  destruct (lo i) as [[a1 a2] a3] eqn:El.
  rewrite (C79_hexahedron_volume (mkE Hex (m_t m) (m_p m)) i (a1, a2, a3) (0, hy, 0) (hx, 0, 0) (0, 0, hz) eq_refl).
  - unfold det3. match goal with |- 0 < _ * Rabs ?e => replace e with (- (hx * hy * hz)) by ring end. rewrite Rabs_Ropp.
    assert (P : 0 < hx * hy * hz) by (apply Rmult_lt_0_compat; [apply Rmult_lt_0_compat|]; assumption). rewrite Rabs_right by lra. lra.
  - unfold parallelepiped, corner. cbv zeta. cbn [e_t e_p]. rewrite !(brick_corners m _ _ _ B) by lia. cbn [nth].
    unfold vadd, vscale, vx, vy, vz. cbn [fst snd]. repeat split; (f_equal; [f_equal|]); ring.
Qed.
Print Assumptions C80_element_helmholtz_identity.

(* Tetrahedral boxes: after the refinements the node lattice is not coarser than
   the mesh size in the longest direction, and one refinement less would be. *)
Theorem C80_tet_refinements : forall xl yl zl size, 0 < xl -> 0 < yl -> 0 < zl -> 0 < size ->
  let L := Rmax (Rmax xl yl) zl in let n := tet_refinements xl yl zl size in
  (forall len, len = xl \/ len = yl \/ len = zl -> tet_spacing xl yl zl size len <= size) /\
  (forall k, (k < n)%nat -> size < L / 2 ^ k).
Proof.
  intros xl yl zl size Hx Hy Hz Hs L n.
  assert (ML : xl <= L /\ yl <= L /\ zl <= L).
  { unfold L. pose proof (Rmax_l (Rmax xl yl) zl). pose proof (Rmax_r (Rmax xl yl) zl). pose proof (Rmax_l xl yl). pose proof (Rmax_r xl yl). lra. }
  assert (PL : 0 < L) by lra. assert (Pq : 0 < L / size) by now apply Rdiv_lt_0_compat.
  assert (L2 : 0 < ln 2) by (rewrite <- ln_1; apply ln_increasing; lra).
  assert (E2 : forall k, 2 ^ k = exp (INR k * ln 2)).
  { intros k. rewrite <- Rpower_pow by lra. reflexivity. }
  pose proof (Rceil_spec (ln (L / size) / ln 2)) as (C1 & C2). set (z := Rceil (ln (L / size) / ln 2)) in *.
  assert (Hn : n = Z.to_nat z) by reflexivity.
  assert (Q : ln (L / size) / ln 2 * ln 2 = ln (L / size)) by (field; lra).
  assert (U : L / 2 ^ n <= size).
  { assert (Hle : L / size <= 2 ^ n).
    { rewrite <- (exp_ln (L / size)) at 1 by exact Pq. rewrite E2.
      assert (IZR z <= INR n) by (rewrite Hn, INR_IZR_INZ; apply IZR_le; lia).
      destruct (Req_dec (ln (L / size)) (INR n * ln 2)) as [->|Hne]; [lra|]. left. apply exp_increasing. nra. }
    assert (P2 : 0 < 2 ^ n) by (apply pow_lt; lra). apply (Rmult_le_reg_r (2 ^ n)); [exact P2|].
    replace (L / 2 ^ n * 2 ^ n) with L by (field; lra). replace L with (L / size * size) by (field; lra). nra. }
  split.
  - intros len Hlen. unfold tet_spacing. fold n. assert (P2 : 0 < / 2 ^ n) by (apply Rinv_0_lt_compat, pow_lt; lra).
    apply Rle_trans with (L / 2 ^ n); [|exact U]. unfold Rdiv. apply Rmult_le_compat_r; [lra|]. destruct Hlen as [->|[->| ->]]; lra.
  - intros k Hk. assert (Hz1 : INR k + 1 <= IZR z).
    { replace (IZR z) with (INR n); [rewrite <- S_INR; apply le_INR; lia|]. rewrite Hn, INR_IZR_INZ. f_equal. apply Z2Nat.id. lia. }
    assert (Hlt : 2 ^ k < L / size).
    { rewrite E2. rewrite <- (exp_ln (L / size)) by exact Pq. apply exp_increasing. nra. }
    assert (P2 : 0 < 2 ^ k) by (apply pow_lt; lra). apply (Rmult_lt_reg_r (2 ^ k)); [exact P2|].
    replace (L / 2 ^ k * 2 ^ k) with L by (field; lra). replace L with (L / size * size) by (field; lra). nra.
Qed.
Print Assumptions C80_tet_refinements.

Example C80_instance : cells 8 1 = 8%nat /\ cells 1 (3 / 10) = 4%nat /\
  List.length (m_t (create_box_hex 8 6 4 1)) = 192%nat.
Proof.
  assert (C : forall len size n, 0 < len -> 0 < size -> (INR n - 1) * size < len <= INR n * size -> cells len size = n).
  { intros len size n Hl Hs (H1 & H2). destruct (cells_spec len size Hl Hs) as (_ & H3 & H4).
    assert (INR n < INR (cells len size) + 1) by nra. assert (INR (cells len size) < INR n + 1) by nra.
    rewrite <- S_INR in *. apply INR_lt in H, H0. lia. }
  split; [apply C; cbn; lra|]. split; [apply C; cbn; lra|].
  rewrite (proj1 (C80_bricks 8 6 4 1 ltac:(lra) ltac:(lra) ltac:(lra) ltac:(lra))).
  rewrite (C 8 1 8%nat), (C 6 1 6%nat), (C 4 1 4%nat) by (cbn; lra). reflexivity.
Qed.
