(* C82: what the VTU files contain.  C83: the frames of the animation. *)
From Coq Require Import Ascii String Permutation Sorted Lia.
From Verif Require Import Base Mesh_model Mesh_spec Adj_model Adj_props EHelm_model EHelm_props Box_model Box_props Ckpt_model Ckpt_proofs Tags_props Out_model.
Open Scope R_scope.
Open Scope list_scope.

(* ================= C82 ================= *)
(* ---------- specification: how a VTK hexahedron is read ---------- *)
(* the trilinear map of the cell with corners q 0 .. q 7 (corners 0 1 2 3 of the
   bottom face in order, 4 5 6 7 above them) has this Jacobian at (r,s,t) *)
Definition mid (w1 w2 w3 w4 : R) (a b c d : vec3) : vec3 :=
  vadd (vscale w1 a) (vadd (vscale w2 b) (vadd (vscale w3 c) (vscale w4 d))).
Definition vtk_jac (q : nat -> vec3) (r s t : R) : R :=
  let e i j := vsub (q j) (q i) in
  det3 (mid ((1 - s) * (1 - t)) (s * (1 - t)) ((1 - s) * t) (s * t) (e 0%nat 1%nat) (e 3%nat 2%nat) (e 4%nat 5%nat) (e 7%nat 6%nat))
       (mid ((1 - r) * (1 - t)) (r * (1 - t)) ((1 - r) * t) (r * t) (e 0%nat 3%nat) (e 1%nat 2%nat) (e 4%nat 7%nat) (e 5%nat 6%nat))
       (mid ((1 - r) * (1 - s)) (r * (1 - s)) ((1 - r) * s) (r * s) (e 0%nat 4%nat) (e 1%nat 5%nat) (e 3%nat 7%nat) (e 2%nat 6%nat)).
Definition unit01 (r s t : R) : Prop := 0 <= r <= 1 /\ 0 <= s <= 1 /\ 0 <= t <= 1.
(* a valid cell: the Jacobian does not change sign *)
Definition tangled (q : nat -> vec3) : Prop := exists r s t r' s' t',
  unit01 r s t /\ unit01 r' s' t' /\ vtk_jac q r s t < 0 < vtk_jac q r' s' t'.
Definition cell_corner (v : vtu) (e k : nat) : vec3 := nth (nth k (nth e (v_cells v) []) 0%nat) (v_points v) v0.

(* lookup of the last value given for a name *)
Fixpoint last_value (n : string) (names : list string) (values : list (list R)) : option (list R) :=
  match names, values with
  | k :: ns, v :: vs => match last_value n ns vs with Some w => Some w | None => if String.eqb n k then Some v else None end
  | _, _ => None
  end.
Definition given (names : option (list string)) (values : option (list (list R))) (n : string) : option (list R) :=
  match names, values with Some ns, Some vs => last_value n ns vs | _, _ => None end.

Lemma dput_assoc n k v d : match find (fun kv => String.eqb n (fst kv)) (dput k v d) with Some kv => Some (snd kv) | None => None end =
  if String.eqb n k then Some v else match find (fun kv => String.eqb n (fst kv)) d with Some kv => Some (snd kv) | None => None end.
Proof.
  induction d as [|[k' v'] d IH]; cbn [dput find fst].
  - destruct (String.eqb n k); reflexivity.
  - destruct (String.eqb_spec k k') as [->|Hne]; cbn [find fst snd].
    + destruct (String.eqb n k'); reflexivity.
    + destruct (String.eqb_spec n k') as [->|Hn]; [|exact IH].
      destruct (String.eqb_spec k' k) as [E|]; [congruence|reflexivity].
Qed.
Definition stored (d : list (string * list R)) (n : string) : option (list R) :=
  match find (fun kv => String.eqb n (fst kv)) d with Some kv => Some (snd kv) | None => None end.
Lemma collected names values n : stored (collect_data names values) n = given names values n.
Proof.
  destruct names as [ns|]; [|reflexivity]. destruct values as [vs|]; [|reflexivity]. unfold collect_data, given.
  assert (G : forall ns vs d, stored (fold_left (fun d nv => dput (fst nv) (snd nv) d) (combine ns vs) d) n =
    match last_value n ns vs with Some w => Some w | None => stored d n end).
  { clear ns vs. induction ns as [|k ns IH]; intros vs d; [reflexivity|]. destruct vs as [|v vs]; [reflexivity|].
    cbn [combine fold_left fst snd last_value]. rewrite IH. destruct (last_value n ns vs); [reflexivity|].
    unfold stored at 1. rewrite dput_assoc. destruct (String.eqb n k); reflexivity. }
  rewrite G. destruct (last_value n ns vs); reflexivity.
Qed.

(* Whenever a file is written it holds the nodes and the elements of the mesh, and
   under every name the array last given for it (names and arrays beyond the
   shorter list are dropped without notice); every array has one entry per node
   or element.  Otherwise ValueError. *)
Theorem C82_written_data : forall k m pn pv cn cv,
  (exists v, export_mesh_with_info k m pn pv cn cv = Ok v /\ k <> MOther /\
     v_points v = m_p m /\ v_cells v = m_t m /\ v_type v = (match k with MTet => "tetra" | _ => "hexahedron" end)%string /\
     (forall n, stored (v_point_data v) n = given pn pv n) /\ (forall n, stored (v_cell_data v) n = given cn cv n) /\
     (forall n a, given pn pv n = Some a -> List.length a = List.length (m_p m)) /\
     (forall n a, given cn cv n = Some a -> List.length a = List.length (m_t m))) \/
  (export_mesh_with_info k m pn pv cn cv = Err ValueError /\
     (k = MOther \/ (exists n a, given pn pv n = Some a /\ List.length a <> List.length (m_p m)) \/
                    (exists n a, given cn cv n = Some a /\ List.length a <> List.length (m_t m)))).
Proof.
  intros k m pn pv cn cv.
  assert (ND : forall ns vs, NoDup (map fst (collect_data ns vs))).
  { intros ns vs. unfold collect_data. destruct ns as [ns|]; [|constructor]. destruct vs as [vs|]; [|constructor].
    assert (P : forall key v d, NoDup (map fst d) -> NoDup (map fst (dput key v d)) /\ forall x, In x (map fst (dput key v d)) -> x = key \/ In x (map fst d)).
    { intros key v d. induction d as [|[k' v'] d IH]; intros H; cbn [dput map fst].
      - split; [constructor; [easy|constructor]|]. intros x [->|[]]. now left.
      - destruct (String.eqb_spec key k') as [->|Hne]; cbn [map fst]; [split; [exact H|intros x Hx; now right]|].
        inversion H as [|? ? Hn Hd]; subst. destruct (IH Hd) as (I1 & I2). split.
        + constructor; [|exact I1]. intros Hi. apply I2 in Hi. destruct Hi; [congruence|contradiction].
        + intros x [->|Hx]; [right; now left|]. apply I2 in Hx. destruct Hx; [now left|right; now right]. }
    assert (Q : forall l d, NoDup (map fst d) -> NoDup (map fst (fold_left (fun d nv => dput (fst nv) (snd nv) d) l d))).
    { induction l as [|[a b] l IH]; intros d Hd; [exact Hd|]. cbn [fold_left]. apply IH. now apply P. }
    apply Q. constructor. }
  assert (ST : forall d n a, NoDup (map fst d) -> (stored d n = Some a <-> In (n, a) d)).
  { induction d as [|[k' v'] d IH]; intros n a Hd; [split; [discriminate|intros []]|]. inversion Hd as [|? ? Hn Hd']; subst. unfold stored. cbn [find fst].
    destruct (String.eqb_spec n k') as [->|Hne]; cbn [snd].
    - split; [intros E; injection E as ->; now left|]. intros [E|Hin]; [now injection E as ->|]. exfalso. apply Hn. cbn [fst]. apply (in_map fst) in Hin. exact Hin.
    - fold (stored d n). rewrite (IH n a Hd'). split; [intros H; now right|]. intros [E|H]; [injection E as E _; congruence|exact H]. }
  assert (LO : forall num ns vs, lengths_ok num (collect_data ns vs) = true /\ (forall n a, given ns vs n = Some a -> List.length a = num) \/
     lengths_ok num (collect_data ns vs) = false /\ exists n a, given ns vs n = Some a /\ List.length a <> num).
  { intros num ns vs. destruct (lengths_ok num (collect_data ns vs)) eqn:E; [left|right]; (split; [reflexivity|]).
    - intros n a H. rewrite <- collected in H. apply ST in H; [|apply ND]. unfold lengths_ok in E. rewrite forallb_forall in E.
      specialize (E _ H). cbn [snd] in E. now apply Nat.eqb_eq.
    - unfold lengths_ok in E. apply Bool.not_true_iff_false in E. rewrite forallb_forall in E.
      assert (D : forall l, (exists x, In x l /\ Nat.eqb (List.length (snd x)) num = false) \/ (forall x : string * list R, In x l -> Nat.eqb (List.length (snd x)) num = true)).
      { induction l as [|x l [ (y & Hy & Ey) | H]]; [right; easy|left; exists y; split; [now right|exact Ey]|].
        destruct (Nat.eqb (List.length (snd x)) num) eqn:Ex; [right; intros y [<-|Hy]; auto|left; exists x; split; [now left|exact Ex]]. }
      destruct (D (collect_data ns vs)) as [([n a] & Hin & Hl)|H]; [|contradiction].
      exists n, a. split; [rewrite <- collected; apply ST; [apply ND|exact Hin]|]. now apply Nat.eqb_neq in Hl. }
  unfold export_mesh_with_info. destruct k; [| |right; split; [reflexivity|now left]].
  all: cbn [Base.bind]; destruct (LO (List.length (m_p m)) pn pv) as [(-> & L1)|(-> & L1)]; cbn [negb];
    [|right; split; [reflexivity|right; now left]];
    destruct (LO (List.length (m_t m)) cn cv) as [(-> & L2)|(-> & L2)]; cbn [negb];
    [|right; split; [reflexivity|right; now right]];
    left; eexists; (split; [reflexivity|]); cbn [v_points v_cells v_type v_point_data v_cell_data];
    (split; [discriminate|]); do 3 (split; [reflexivity|]); (split; [intros; apply collected|]); (split; [intros; apply collected|]); split; assumption.
Qed.
Print Assumptions C82_written_data.

(* The arrays of an optimisation run: both fields, one value per element. *)
Theorem C82_iteration_file : forall k m rho energy, k <> MOther ->
  List.length rho = List.length (m_t m) -> List.length energy = List.length (m_t m) ->
  exists v, export_mesh_with_info k m None None (Some ["rho_projected"; "energy"]%string) (Some [rho; energy]) = Ok v /\
  v_point_data v = [] /\ v_cell_data v = [("rho_projected", rho); ("energy", energy)]%string.
Proof.
  intros k m rho energy Hk L1 L2. unfold export_mesh_with_info.
  assert (C : collect_data (Some ["rho_projected"; "energy"]%string) (Some [rho; energy]) = [("rho_projected", rho); ("energy", energy)]%string) by reflexivity.
  rewrite C. unfold lengths_ok. cbn [forallb snd collect_data negb]. rewrite L1, L2, Nat.eqb_refl. cbn [andb negb].
  destruct k; [| |contradiction]; cbn [Base.bind]; eexists; (split; [reflexivity|]); split; reflexivity.
Qed.
Print Assumptions C82_iteration_file.

(* REFUTED for hexahedra: scikit-fem's node order is written as if it were VTK's.
   Every cell that is a (non-degenerate) parallelepiped is read as a cell that
   crosses itself, and no two cells of a mesh share a face. *)
Theorem C82_hexahedra_refuted : forall m v pn pv cn cv e o a b c,
  export_mesh_with_info MHex m pn pv cn cv = Ok v ->
  parallelepiped (mkE Hex (m_t m) (m_p m)) e o a b c -> det3 a b c <> 0 -> tangled (cell_corner v e).
Proof.
  intros m v pn pv cn cv e o a b c Hv HP HD.
  destruct (C82_written_data MHex m pn pv cn cv) as [(v' & Hv' & _ & E1 & E2 & _)|(Hv' & _)]; [|congruence].
  rewrite Hv in Hv'. assert (v' = v) as -> by congruence.
  assert (Q : forall k, cell_corner v e k = corner (mkE Hex (m_t m) (m_p m)) e k) by (intros k; unfold cell_corner; rewrite E1, E2; reflexivity).
  destruct HP as (P0 & P1 & P2 & P3 & P4 & P5 & P6 & P7).
  assert (J0 : vtk_jac (cell_corner v e) 0 0 0 = - det3 a b c).
  { unfold vtk_jac. cbv zeta. rewrite !Q, P0, P1, P2, P3, P4, P5, P6, P7.
    destruct o as [[o1 o2] o3], a as [[a1 a2] a3], b as [[b1 b2] b3], c as [[c1 c2] c3].
    unfold det3, mid, vadd, vsub, vscale, vx, vy, vz. cbn [fst snd]. ring. }
  assert (J1 : vtk_jac (cell_corner v e) 1 0 0 = det3 a b c).
  { unfold vtk_jac. cbv zeta. rewrite !Q, P0, P1, P2, P3, P4, P5, P6, P7.
    destruct o as [[o1 o2] o3], a as [[a1 a2] a3], b as [[b1 b2] b3], c as [[c1 c2] c3].
    unfold det3, mid, vadd, vsub, vscale, vx, vy, vz. cbn [fst snd]. ring. }
  destruct (Rlt_dec (det3 a b c) 0) as [Hn|Hp].
  - exists 1, 0, 0, 0, 0, 0. rewrite J0, J1. unfold unit01. repeat split; lra.
  - exists 0, 0, 0, 1, 0, 0. rewrite J0, J1. unfold unit01. repeat split; lra.
Qed.
Print Assumptions C82_hexahedra_refuted.
(* every cell of every box mesh *)
Theorem C82_box_refuted : forall xl yl zl size, 0 < xl -> 0 < yl -> 0 < zl -> 0 < size ->
  let m := create_box_hex xl yl zl size in
  forall v pn pv cn cv, export_mesh_with_info MHex m pn pv cn cv = Ok v ->
  (forall e, (e < List.length (m_t m))%nat -> tangled (cell_corner v e)) /\
  (forall e, face_adjacency hex_faces (v_cells v) e = []).
Proof.
  intros xl yl zl size Hx Hy Hz Hs m v pn pv cn cv Hv. split.
  - intros e He.
    pose proof (C80_bricks xl yl zl size Hx Hy Hz Hs) as HB. cbv zeta in HB. fold m in HB. destruct HB as (L1 & _ & lo & HB & _).
    destruct (box_sizes xl yl zl size Hx Hy Hz Hs) as (Px & Py & Pz & _).
    pose proof (step_pos xl _ Hx Px) as Sx. pose proof (step_pos yl _ Hy Py) as Sy. pose proof (step_pos zl _ Hz Pz) as Sz.
    destruct (HB e He) as (B & _).
    set (hx := xl / INR (cells xl size)) in *. set (hy := yl / INR (cells yl size)) in *. set (hz := zl / INR (cells zl size)) in *.
    destruct (lo e) as [[a1 a2] a3] eqn:El.
    apply (C82_hexahedra_refuted m v pn pv cn cv e (a1, a2, a3) (0, hy, 0) (hx, 0, 0) (0, 0, hz) Hv).
    + unfold parallelepiped, corner. cbv zeta. cbn [e_t e_p]. rewrite !(brick_corners m _ _ _ B) by lia. cbn [nth].
      unfold vadd, vscale, vx, vy, vz. cbn [fst snd]. repeat split; (f_equal; [f_equal|]); ring.
    + unfold det3. match goal with |- ?t <> 0 => replace t with (- (hx * hy * hz)) by ring end.
      assert (P : 0 < hx * hy * hz) by (apply Rmult_lt_0_compat; [apply Rmult_lt_0_compat|]; assumption). lra.
  - intros e. destruct (C82_written_data MHex m pn pv cn cv) as [(v' & Hv' & _ & _ & E2 & _)|(Hv' & _)]; [|congruence].
    rewrite Hv in Hv'. assert (v' = v) as -> by congruence. rewrite E2.
    apply C78_refuted_hexahedra. exact (box_is_skfem xl yl zl size Hx Hy Hz Hs).
Qed.
Print Assumptions C82_box_refuted.
(* the order scikit-fem itself uses for its files (0 3 6 2 1 5 7 4) is right *)
Theorem C82_right_order : forall m e o a b c r s t, parallelepiped (mkE Hex (m_t m) (m_p m)) e o a b c ->
  vtk_jac (fun k => corner (mkE Hex (m_t m) (m_p m)) e (nth k [0; 3; 6; 2; 1; 5; 7; 4]%nat 0%nat)) r s t = det3 c b a.
Proof.
  intros m e o a b c r s t (P0 & P1 & P2 & P3 & P4 & P5 & P6 & P7).
  unfold vtk_jac. cbn [nth]. cbv zeta. rewrite P0, P1, P2, P3, P4, P5, P6, P7.
  destruct o as [[o1 o2] o3], a as [[a1 a2] a3], b as [[b1 b2] b3], c as [[c1 c2] c3].
  unfold det3, mid, vadd, vsub, vscale, vx, vy, vz. cbn [fst snd]. ring.
Qed.
Print Assumptions C82_right_order.
(* a unit cube in scikit-fem's numbering, with the densities of a run *)
Example C82_instance : exists v, export_mesh_with_info MHex (create_box_hex 1 1 1 1) None None
    (Some ["rho_projected"; "energy"]%string) (Some [[1/2]; [3]]) = Ok v /\
  v_cell_data v = [("rho_projected", [1/2]); ("energy", [3])]%string /\ tangled (cell_corner v 0).
Proof.
  assert (L : List.length (m_t (create_box_hex 1 1 1 1)) = 1%nat).
  { pose proof (C80_bricks 1 1 1 1 ltac:(lra) ltac:(lra) ltac:(lra) ltac:(lra)) as HB. cbv zeta in HB. destruct HB as (L1 & _).
    rewrite L1. pose proof (C80_fewest_cells 1 1 ltac:(lra) ltac:(lra)) as F. cbv zeta in F.
    assert (cells 1 1 = 1%nat) as ->; [|reflexivity].
    destruct F as (F0 & F1 & F2). assert (A : (cells 1 1 <= 1)%nat) by (apply F2; [lia|cbn [INR]; lra]). lia. }
  destruct (C82_iteration_file MHex (create_box_hex 1 1 1 1) [1/2] [3]) as (v & Hv & _ & Hc); [discriminate|now rewrite L|now rewrite L|].
  exists v. split; [exact Hv|]. split; [exact Hc|].
  apply (proj1 (C82_box_refuted 1 1 1 1 ltac:(lra) ltac:(lra) ltac:(lra) ltac:(lra) v _ _ _ _ Hv)). rewrite L. lia.
Qed.

(* ================= C83 ================= *)
(* ---------- specification: the files of a run in mesh_rho ---------- *)
Definition vtu_name (i : Z) : name := lit "info_mesh-" ++ zfill 8 (py_str i) ++ lit ".vtu".
Definition rho_name (i : Z) : name := lit "info_rho_projected-" ++ zfill 8 (py_str i) ++ lit ".jpg".
Definition energy_name (i : Z) : name := lit "info_energy-" ++ zfill 8 (py_str i) ++ lit ".jpg".
(* the directory, listed in any order, after images were made at the iterations its *)
Definition run_listing (its vtus : list Z) (listing : list name) : Prop :=
  Permutation listing (map rho_name its ++ map energy_name its ++ map vtu_name vtus ++ [lit "last.jpg"]).

Lemma name_leb_refl a : name_leb a a = true.
Proof. induction a as [|x a IH]; [reflexivity|]. cbn [name_leb]. rewrite Nat.ltb_irrefl, Nat.eqb_refl. exact IH. Qed.
Lemma name_leb_total a : forall b, name_leb a b = true \/ name_leb b a = true.
Proof.
  induction a as [|x a IH]; intros [|y b]; cbn [name_leb]; auto.
  destruct (Nat.ltb_spec (nat_of_ascii x) (nat_of_ascii y)); [now left|].
  destruct (Nat.eqb_spec (nat_of_ascii x) (nat_of_ascii y)) as [E|E].
  - rewrite E, Nat.ltb_irrefl, Nat.eqb_refl. apply IH.
  - right. destruct (Nat.ltb_spec (nat_of_ascii y) (nat_of_ascii x)); [reflexivity|lia].
Qed.
Lemma code_inj x y : nat_of_ascii x = nat_of_ascii y -> x = y.
Proof. intros H. apply (f_equal ascii_of_nat) in H. now rewrite !ascii_nat_embedding in H. Qed.
Lemma name_leb_antisym a : forall b, name_leb a b = true -> name_leb b a = true -> a = b.
Proof.
  induction a as [|x a IH]; intros [|y b]; cbn [name_leb]; try discriminate; [reflexivity|].
  destruct (Nat.ltb_spec (nat_of_ascii x) (nat_of_ascii y)).
  - intros _. destruct (Nat.ltb_spec (nat_of_ascii y) (nat_of_ascii x)); [lia|].
    destruct (Nat.eqb_spec (nat_of_ascii y) (nat_of_ascii x)); [lia|discriminate].
  - destruct (Nat.eqb_spec (nat_of_ascii x) (nat_of_ascii y)) as [E|E]; [|discriminate]. rewrite E, Nat.ltb_irrefl, Nat.eqb_refl.
    intros I1 I2. f_equal; [now apply code_inj|now apply IH].
Qed.
Lemma name_leb_trans a : forall b c, name_leb a b = true -> name_leb b c = true -> name_leb a c = true.
Proof.
  induction a as [|x a IH]; intros [|y b] [|z c]; cbn [name_leb]; try discriminate; try reflexivity.
  destruct (Nat.ltb_spec (nat_of_ascii x) (nat_of_ascii y)); destruct (Nat.ltb_spec (nat_of_ascii y) (nat_of_ascii z));
    destruct (Nat.ltb_spec (nat_of_ascii x) (nat_of_ascii z)); try reflexivity; try lia;
    destruct (Nat.eqb_spec (nat_of_ascii x) (nat_of_ascii y)); destruct (Nat.eqb_spec (nat_of_ascii y) (nat_of_ascii z));
    destruct (Nat.eqb_spec (nat_of_ascii x) (nat_of_ascii z)); try discriminate; try lia. apply IH.
Qed.
Definition le_name a b : Prop := name_leb a b = true.
Lemma sort_perm l : Permutation (sort_names l) l.
Proof.
  induction l as [|x l IH]; [reflexivity|]. cbn [sort_names fold_right]. fold (sort_names l). rewrite <- IH at 2. generalize (sort_names l) as s. clear.
  induction s as [|y s IH]; [reflexivity|]. cbn [insert_name]. destruct (name_leb x y); [reflexivity|]. rewrite IH. constructor.
Qed.
Lemma sort_sorted l : StronglySorted le_name (sort_names l).
Proof.
  induction l as [|x l IH]; [constructor|]. cbn [sort_names fold_right]. fold (sort_names l). generalize dependent (sort_names l). clear l.
  induction l as [|y s IHs]; intros HS; [repeat constructor|]. cbn [insert_name]. inversion HS as [|? ? HS' HF]; subst.
  destruct (name_leb x y) eqn:E.
  - constructor; [exact HS|]. constructor; [exact E|]. rewrite Forall_forall in *. intros z Hz. specialize (HF z Hz). unfold le_name in *. eapply name_leb_trans; eassumption.
  - constructor; [now apply IHs|]. assert (P : Permutation (insert_name x s) (x :: s)).
    { clear. induction s as [|z s IH]; [reflexivity|]. cbn [insert_name]. destruct (name_leb x z); [reflexivity|]. rewrite IH. constructor. }
    rewrite P. constructor; [|exact HF]. destruct (name_leb_total x y) as [C|C]; [congruence|exact C].
Qed.
Lemma sorted_unique l : forall l', Permutation l l' -> StronglySorted le_name l -> StronglySorted le_name l' -> l = l'.
Proof.
  induction l as [|x l IH]; intros [|y l'] P S1 S2; [reflexivity|now apply Permutation_nil in P|symmetry in P; now apply Permutation_nil in P|].
  inversion S1 as [|? ? S1' F1]; inversion S2 as [|? ? S2' F2]; subst. rewrite Forall_forall in F1, F2.
  assert (x = y) as ->.
  { assert (I1 : In x (y :: l')) by (rewrite <- P; now left). assert (I2 : In y (x :: l)) by (rewrite P; now left).
    destruct I1 as [|I1]; [congruence|]. destruct I2 as [|I2]; [congruence|]. apply name_leb_antisym; [now apply F1|now apply F2]. }
  f_equal. apply IH; auto. now apply Permutation_cons_inv in P.
Qed.
Lemma name_leb_app p a b : name_leb (p ++ a) (p ++ b) = name_leb a b.
Proof. induction p as [|x p IH]; [reflexivity|]. cbn [app name_leb]. rewrite Nat.ltb_irrefl, Nat.eqb_refl. exact IH. Qed.

(* digit strings of equal length compare like the numbers *)
Lemma digit_bounds c : is_digit c = true -> (0 <= digit_val c <= 9)%Z.
Proof. unfold is_digit, digit_val. rewrite andb_true_iff, !Nat.leb_le. lia. Qed.
Lemma int_acc a : forall b x y, List.length a = List.length b -> forallb is_digit a = true -> forallb is_digit b = true -> (x < y)%Z ->
  (fold_left (fun acc c => 10 * acc + digit_val c) a x < fold_left (fun acc c => 10 * acc + digit_val c) b y)%Z.
Proof.
  induction a as [|c a IH]; intros [|d b] x y L Ha Hb H; try discriminate L; [exact H|]. cbn [forallb fold_left] in *.
  apply andb_true_iff in Ha, Hb. destruct Ha as (Hc & Ha), Hb as (Hd & Hb). apply digit_bounds in Hc, Hd. apply IH; auto; lia.
Qed.
Lemma int_leb s a : forall b x, List.length a = List.length b -> forallb is_digit a = true -> forallb is_digit b = true ->
  (fold_left (fun acc c => 10 * acc + digit_val c) a x <= fold_left (fun acc c => 10 * acc + digit_val c) b x)%Z -> name_leb (a ++ s) (b ++ s) = true.
Proof.
  induction a as [|c a IH]; intros [|d b] x L Ha Hb H; try discriminate L; [apply name_leb_refl|]. cbn [forallb fold_left app name_leb] in *.
  apply andb_true_iff in Ha, Hb. destruct Ha as (Hc & Ha), Hb as (Hd & Hb). injection L as L.
  destruct (Nat.ltb_spec (nat_of_ascii c) (nat_of_ascii d)); [reflexivity|].
  destruct (Nat.eqb_spec (nat_of_ascii c) (nat_of_ascii d)) as [E|E].
  - apply code_inj in E as ->. now apply (IH b (10 * x + digit_val d)%Z).
  - exfalso. pose proof (int_acc b a (10 * x + digit_val d) (10 * x + digit_val c) (eq_sym L) Hb Ha) as A.
    assert (G : (10 * x + digit_val d < 10 * x + digit_val c)%Z) by (unfold digit_val; lia). specialize (A G). lia.
Qed.
Definition small (i : Z) : Prop := (0 <= i < 10 ^ 8)%Z.
Lemma small_len i : small i -> List.length (zfill 8 (py_str i)) = 8%nat.
Proof. intros H. rewrite zfill_len. pose proof (py_str_len i 7) as L. unfold small in H. change (10 ^ (Z.of_nat 7 + 1))%Z with (10 ^ 8)%Z in L. specialize (L H). lia. Qed.
Lemma image_leb p s i j : small i -> small j -> (i <= j)%Z -> le_name (p ++ zfill 8 (py_str i) ++ s) (p ++ zfill 8 (py_str j) ++ s).
Proof.
  intros Hi Hj Hij. unfold le_name. rewrite name_leb_app. apply (int_leb s _ _ 0%Z); [now rewrite !small_len|apply zfill_digits; unfold small in *; lia..|].
  change (py_int (zfill 8 (py_str i)) <= py_int (zfill 8 (py_str j)))%Z. rewrite !py_int_zfill; unfold small in *; lia.
Qed.

Lemma filter_all {A} f (l : list A) : (forall x, In x l -> f x = true) -> filter f l = l.
Proof. induction l as [|x l IH]; intros H; [reflexivity|]. cbn [filter]. rewrite (H x (or_introl eq_refl)). f_equal. apply IH. intros y Hy. apply H. now right. Qed.
Lemma filter_none {A} f (l : list A) : (forall x, In x l -> f x = false) -> filter f l = [].
Proof. induction l as [|x l IH]; intros H; [reflexivity|]. cbn [filter]. rewrite (H x (or_introl eq_refl)). apply IH. intros y Hy. apply H. now right. Qed.
Lemma filter_perm {A} f (l l' : list A) : Permutation l l' -> Permutation (filter f l) (filter f l').
Proof. induction 1; cbn [filter]; [constructor|destruct (f x); [now constructor|assumption]|destruct (f x), (f y); try constructor; reflexivity|etransitivity; eassumption]. Qed.

Lemma globbed_own p i : globbed p (image_name p i) = true.
Proof.
  unfold globbed, image_name. rewrite !andb_true_iff. split; [split|].
  - apply Tags_props.prefixb_app. now eexists.
  - unfold suffixb. rewrite !rev_app_distr, <- app_assoc. apply Tags_props.prefixb_app. now eexists.
  - apply Nat.leb_le. rewrite !app_length. cbn [lit list_ascii_of_string List.length]. lia.
Qed.
Lemma every_nth {A} step (l : list A) : (1 <= step)%nat -> forall w j, nth_error (every step w l) j = nth_error l (w + j * step).
Proof.
  intros Hs. induction l as [|x l IH]; intros w j; cbn [every]; [now destruct j, (w + _)%nat|].
  destruct w as [|w]; [|cbn [Nat.add nth_error]; apply IH].
  destruct j as [|j]; [reflexivity|]. cbn [nth_error]. rewrite IH. replace (0 + S j * step)%nat with (S (step - 1 + j * step)) by nia. reflexivity.
Qed.

Lemma frames_sorted p its listing : StronglySorted Z.lt its -> Forall small its ->
  Permutation (filter (globbed p) listing) (map (image_name p) its) ->
  sort_names (filter (globbed p) listing) = map (image_name p) its.
Proof.
  intros HS HF HP. apply sorted_unique; [now rewrite sort_perm|apply sort_sorted|].
  clear HP. induction its as [|i its IH]; [constructor|]. inversion HS as [|? ? HS' HL]; inversion HF as [|? ? Hi HF']; subst. cbn [map].
  constructor; [now apply IH|]. rewrite Forall_map. rewrite Forall_forall in *. intros j Hj. unfold image_name. apply image_leb; [assumption|now apply HF'|].
  specialize (HL j Hj). lia.
Qed.
Definition step_of (skip : Z) : nat := Z.to_nat (Z.max 0 skip + 1).
Lemma frames_nth p its skip listing : StronglySorted Z.lt its -> Forall small its ->
  Permutation (filter (globbed p) listing) (map (image_name p) its) ->
  forall j, nth_error (gif_frames p skip listing) j = option_map (image_name p) (nth_error its (j * step_of skip)).
Proof.
  intros HS HF HP j. unfold gif_frames. rewrite (frames_sorted p its listing HS HF HP). unfold step_of.
  rewrite <- nth_error_map. destruct (Z.gtb_spec skip 0) as [H|H].
  - rewrite every_nth by lia. replace (Z.max 0 skip) with skip by lia. reflexivity.
  - replace (Z.max 0 skip) with 0%Z by lia. change (Z.to_nat (0 + 1)) with 1%nat. now rewrite Nat.mul_1_r.
Qed.

(* The animation of the densities (energies) consists of the density (energy)
   images in the order of the iterations, for every order in which the directory
   is listed; with skip_frame = s > 0 every (s+1)-th of them, starting with the
   first.  No other file of the run gets into it. *)
Theorem C83_frames_in_order : forall its vtus skip listing, StronglySorted Z.lt its -> Forall (fun i => 0 <= i < 10 ^ 8)%Z its ->
  run_listing its vtus listing ->
  let step := Z.to_nat (Z.max 0 skip + 1) in
  (forall j, nth_error (gif_frames (lit "rho_projected") skip listing) j = option_map rho_name (nth_error its (j * step))) /\
  (forall j, nth_error (gif_frames (lit "energy") skip listing) j = option_map energy_name (nth_error its (j * step))).
Proof.
  intros its vtus skip listing HS HF HL step.
  assert (N1 : forall i, globbed (lit "rho_projected") (energy_name i) = false) by (intros i; reflexivity).
  assert (N2 : forall i, globbed (lit "rho_projected") (vtu_name i) = false) by (intros i; reflexivity).
  assert (N3 : forall i, globbed (lit "energy") (rho_name i) = false) by (intros i; reflexivity).
  assert (N4 : forall i, globbed (lit "energy") (vtu_name i) = false) by (intros i; reflexivity).
  split; intros j.
  - apply (frames_nth (lit "rho_projected") its skip listing HS HF). rewrite (filter_perm _ _ _ HL). rewrite !filter_app.
    rewrite (filter_none _ (map energy_name its)), (filter_none _ (map vtu_name vtus)).
    2,3: intros x Hx; apply in_map_iff in Hx; destruct Hx as (i & <- & _); auto.
    rewrite filter_all; [rewrite !app_nil_l; change (filter (globbed (lit "rho_projected")) [lit "last.jpg"]) with ([] : list name); rewrite app_nil_r; reflexivity|].
    intros x Hx. apply in_map_iff in Hx. destruct Hx as (i & <- & _). exact (globbed_own (lit "rho_projected") i).
  - apply (frames_nth (lit "energy") its skip listing HS HF). rewrite (filter_perm _ _ _ HL). rewrite !filter_app.
    rewrite (filter_none _ (map rho_name its)), (filter_none _ (map vtu_name vtus)).
    2,3: intros x Hx; apply in_map_iff in Hx; destruct Hx as (i & <- & _); auto.
    rewrite filter_all; [rewrite !app_nil_l; change (filter (globbed (lit "energy")) [lit "last.jpg"]) with ([] : list name); rewrite app_nil_r; reflexivity|].
    intros x Hx. apply in_map_iff in Hx. destruct Hx as (i & <- & _). exact (globbed_own (lit "energy") i).
Qed.
Print Assumptions C83_frames_in_order.

(* REFUTED from iteration 10^8 on: its image comes before that of 99999999. *)
Theorem C83_refuted_nine_digits : forall listing, run_listing [99999999; 100000000]%Z [] listing ->
  gif_frames (lit "rho_projected") 0 listing = [rho_name 100000000; rho_name 99999999].
Proof.
  intros listing HL. unfold gif_frames. cbn [Z.gtb Z.compare]. apply sorted_unique; [|apply sort_sorted|].
  - rewrite sort_perm, (filter_perm _ _ _ HL). vm_compute. constructor.
  - constructor; [repeat constructor|]. repeat constructor.
Qed.
Print Assumptions C83_refuted_nine_digits.

Example C83_instance : gif_frames (lit "rho_projected") 1
  (map rho_name [12; 3; 7; 1]%Z ++ [lit "last.jpg"] ++ map energy_name [7; 12; 1; 3]%Z ++ map vtu_name [1; 3; 7; 12]%Z)
  = [rho_name 1; rho_name 7].
Proof. vm_compute. reflexivity. Qed.
