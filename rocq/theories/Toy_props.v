(* C88: selecting boundaries by coordinate ranges, and the built-in problems. *)
From Coq Require Import Lia Permutation.
From Verif Require Import Base Sums Mesh_model Mesh_spec Mesh_proofs Mesh_props Adj_model Adj_props Box_model Box_props Toy_model.
From Verif Require Tags_model Tags_props Ckpt_model Ckpt_proofs.
Open Scope R_scope.
Open Scope list_scope.

(* ---------- specification ---------- *)
(* the list names every facet of the hexahedra exactly once (in any node order);
   this is what scikit-fem's mesh.facets is *)
Definition enumerates_facets (t : list elem) (facets : list (list nat)) : Prop :=
  (forall i, (i < List.length facets)%nat -> exists e F, In e t /\ In F skfem_facets /\
     Permutation (nth i facets []) (map (nd e) F)) /\
  (forall e F, In e t -> In F skfem_facets -> exists i, (i < List.length facets)%nat /\ Permutation (nth i facets []) (map (nd e) F)) /\
  (forall i j, (i < List.length facets)%nat -> (j < List.length facets)%nat -> Permutation (nth i facets []) (nth j facets []) -> i = j).
(* n is a node of one of the facets ids *)
Definition node_of (facets : list (list nat)) (ids : list nat) (n : nat) : Prop := exists i, In i ids /\ In n (nth i facets []).
Definition at_node (m : mesh3) (n : nat) : vec3 := nth n (m_p m) v0.
(* the centroid of a list of nodes *)
Definition centroid (p : list vec3) (ns : list nat) (q : vec3) : Prop :=
  INR (List.length ns) * vx q = rsum (map (fun n => vx (nth n p v0)) ns) /\
  INR (List.length ns) * vy q = rsum (map (fun n => vy (nth n p v0)) ns) /\
  INR (List.length ns) * vz q = rsum (map (fun n => vz (nth n p v0)) ns).

(* ---------- selection ---------- *)
Lemma in_range_iff xr yr zr q : points_in_range xr yr zr q = true <->
  in_box (fst xr, fst yr, fst zr) (snd xr, snd yr, snd zr) q.
Proof.
  unfold points_in_range, in_box. rewrite !Bool.andb_true_iff, !Rleb_true. unfold vx, vy, vz. cbn [fst snd]. tauto.
Qed.
Lemma satisfying_in p cells test i : In i (satisfying p cells test) <-> (i < List.length cells)%nat /\ test (midpoint p (nth i cells [])) = true.
Proof. unfold satisfying. rewrite filter_In, in_seq. intuition lia. Qed.
Lemma mean_sum l : l <> [] -> INR (List.length l) * mean l = rsum l.
Proof. intros H. unfold mean. field. apply not_0_INR. destruct l; [easy|cbn; lia]. Qed.
Lemma mid_centroid p ns : ns <> [] -> centroid p ns (midpoint p ns).
Proof.
  intros H. unfold centroid, midpoint. assert (N : forall f : nat -> R, map f ns <> []) by (destruct ns; easy).
  unfold vx, vy, vz. cbn [fst snd]. repeat split; rewrite <- (mean_sum (map _ ns)) by apply N; rewrite map_length; reflexivity.
Qed.
Lemma mean_bounds lo hi l : l <> [] -> Forall (fun x => lo <= x <= hi) l -> lo <= mean l <= hi.
Proof.
  intros Hne HF. assert (P : 0 < INR (List.length l)) by (apply lt_0_INR; destruct l; [easy|cbn; lia]).
  pose proof (mean_sum l Hne) as E.
  assert (B : INR (List.length l) * lo <= rsum l <= INR (List.length l) * hi).
  { clear -HF. induction HF as [|x l Hx HF IH]; [unfold rsum; cbn; lra|]. change (rsum (x :: l)) with (x + rsum l).
    cbn [List.length]. rewrite S_INR. lra. }
  split; apply (Rmult_le_reg_l (INR (List.length l))); lra.
Qed.

(* A range selects exactly the facets (elements) whose centroid lies in the closed
   box; one that lies in the box entirely is selected, one entirely on the other
   side of one of its six planes is not.  For any mesh. *)
Theorem C88_selection : forall p cells xr yr zr i, (i < List.length cells)%nat -> nth i cells [] <> [] ->
  let sel := satisfying p cells (points_in_range xr yr zr) in
  let lo := (fst xr, fst yr, fst zr) in let hi := (snd xr, snd yr, snd zr) in
  (forall q, centroid p (nth i cells []) q -> (In i sel <-> in_box lo hi q)) /\
  ((forall n, In n (nth i cells []) -> in_box lo hi (nth n p v0)) -> In i sel) /\
  ((exists c : vec3 -> R, (c = vx \/ c = vy \/ c = vz) /\
     ((forall n, In n (nth i cells []) -> c (nth n p v0) < c lo) \/ (forall n, In n (nth i cells []) -> c hi < c (nth n p v0)))) -> ~ In i sel).
Proof.
  intros p cells xr yr zr i Hi Hne sel lo hi. set (ns := nth i cells []) in *.
  assert (Hsel : In i sel <-> in_box lo hi (midpoint p ns)).
  { unfold sel. rewrite satisfying_in, in_range_iff. fold ns. tauto. }
  assert (P : 0 < INR (List.length ns)) by (apply lt_0_INR; destruct ns; [easy|cbn; lia]).
  assert (N : forall f : nat -> R, map f ns <> []) by (destruct ns; easy).
  split; [|split].
  - intros q (Q1 & Q2 & Q3). rewrite Hsel. destruct (mid_centroid p ns Hne) as (C1 & C2 & C3).
    assert (vx q = vx (midpoint p ns)) by (apply (Rmult_eq_reg_l (INR (List.length ns))); lra).
    assert (vy q = vy (midpoint p ns)) by (apply (Rmult_eq_reg_l (INR (List.length ns))); lra).
    assert (vz q = vz (midpoint p ns)) by (apply (Rmult_eq_reg_l (INR (List.length ns))); lra).
    unfold in_box. now replace (vx q) with (vx (midpoint p ns)); replace (vy q) with (vy (midpoint p ns)); replace (vz q) with (vz (midpoint p ns)).
  - intros H. apply Hsel. unfold in_box in *. unfold midpoint. 
    assert (G : forall (c : vec3 -> R) a b, (forall n, In n ns -> a <= c (nth n p v0) <= b) -> a <= mean (map (fun n => c (nth n p v0)) ns) <= b).
    { intros c a b Hc. apply mean_bounds; [apply N|]. rewrite Forall_map. rewrite Forall_forall. exact Hc. }
    split; [|split]; [apply (G vx)|apply (G vy)|apply (G vz)]; intros n Hn; apply (H n Hn).
  - intros (c & Hc & H) Hs. apply Hsel in Hs.
    assert (G : c (midpoint p ns) = mean (map (fun n => c (nth n p v0)) ns)) by (destruct Hc as [-> |[-> | -> ]]; reflexivity).
    assert (B : c lo <= c (midpoint p ns) <= c hi) by (destruct Hs as (B1 & B2 & B3); destruct Hc as [-> |[-> | -> ]]; assumption).
    assert (S : forall d, (forall n, In n ns -> c (nth n p v0) < d) -> mean (map (fun n => c (nth n p v0)) ns) < d).
    { intros d Hd. apply (Rmult_lt_reg_l (INR (List.length ns)) _ _ P). pose proof (mean_sum (map (fun n => c (nth n p v0)) ns) (N _)) as E.
      rewrite map_length in E. rewrite E. clear -Hd Hne. destruct ns as [|a r]; [easy|]. revert a Hd Hne.
      induction r as [|b r IH]; intros a Hd _.
      - unfold rsum. cbn [map fold_right List.length INR]. specialize (Hd a (or_introl eq_refl)). lra.
      - change (rsum (map (fun n => c (nth n p v0)) (a :: b :: r))) with (c (nth a p v0) + rsum (map (fun n => c (nth n p v0)) (b :: r))).
        specialize (IH b ltac:(intros n Hn; apply Hd; now right) ltac:(easy)). pose proof (Hd a (or_introl eq_refl)).
        change (List.length (a :: b :: r)) with (S (List.length (b :: r))). rewrite S_INR. lra. }
    destruct H as [H|H].
    + specialize (S (c lo) H). lra.
    + assert (S2 : forall d, (forall n, In n ns -> d < c (nth n p v0)) -> d < mean (map (fun n => c (nth n p v0)) ns)).
      { intros d Hd. apply (Rmult_lt_reg_l (INR (List.length ns)) _ _ P). pose proof (mean_sum (map (fun n => c (nth n p v0)) ns) (N _)) as E.
        rewrite map_length in E. rewrite E. clear -Hd Hne. destruct ns as [|a r]; [easy|]. revert a Hd Hne.
        induction r as [|b r IH]; intros a Hd _.
        - unfold rsum. cbn [map fold_right List.length INR]. specialize (Hd a (or_introl eq_refl)). lra.
        - change (rsum (map (fun n => c (nth n p v0)) (a :: b :: r))) with (c (nth a p v0) + rsum (map (fun n => c (nth n p v0)) (b :: r))).
          specialize (IH b ltac:(intros n Hn; apply Hd; now right) ltac:(easy)). pose proof (Hd a (or_introl eq_refl)).
          change (List.length (a :: b :: r)) with (S (List.length (b :: r))). rewrite S_INR. lra. }
      specialize (S2 (c hi) H). lra.
Qed.
Print Assumptions C88_selection.

(* ---------- the facets of a box ---------- *)
Inductive axis := AX | AY | AZ.
Lemma perm4a {A} (a b c d : A) : Permutation [a; c; d; b] [a; b; c; d].
Proof. apply perm_skip. apply Permutation_sym. exact (Permutation_cons_append [c; d] b). Qed.
Lemma perm4b {A} (a b c d : A) : Permutation [a; b; d; c] [a; b; c; d].
Proof. do 2 apply perm_skip. apply perm_swap. Qed.
Lemma mean_perm l l' : Permutation l l' -> mean l = mean l'.
Proof.
  intros H. unfold mean. rewrite (Permutation_length H). f_equal. unfold rsum.
  induction H; cbn [fold_right]; lra.
Qed.
Lemma mid_perm p l l' : Permutation l l' -> midpoint p l = midpoint p l'.
Proof.
  intros H. unfold midpoint. now rewrite (mean_perm _ _ (Permutation_map (fun n => vx (nth n p (0, 0, 0))) H)),
    (mean_perm _ _ (Permutation_map (fun n => vy (nth n p (0, 0, 0))) H)), (mean_perm _ _ (Permutation_map (fun n => vz (nth n p (0, 0, 0))) H)).
Qed.

Lemma step_len len size : 0 < len -> 0 < size -> INR (cells len size) * (len / INR (cells len size)) = len.
Proof. intros Hl Hs. field. apply not_0_INR. pose proof (cells_spec len size Hl Hs). lia. Qed.

Section box.
  Variables (xl yl zl size : R).
  Hypothesis (Hx : 0 < xl) (Hy : 0 < yl) (Hz : 0 < zl) (Hs : 0 < size).
  Let nx := cells xl size. Let ny := cells yl size. Let nz := cells zl size.
  Let d := mkDims nx ny nz.
  Let m := create_box_hex xl yl zl size.
  Let hx := xl / INR nx. Let hy := yl / INR ny. Let hz := zl / INR nz.
  Notation nn := (node_number d).
  Definition lat (a : axis) (i j k : nat) : list nat :=
    match a with
    | AX => [nn i j k; nn i (j + 1) k; nn i j (k + 1); nn i (j + 1) (k + 1)]%nat
    | AY => [nn i j k; nn (i + 1) j k; nn i j (k + 1); nn (i + 1) j (k + 1)]%nat
    | AZ => [nn i j k; nn (i + 1) j k; nn i (j + 1) k; nn (i + 1) (j + 1) k]%nat
    end.
  Definition lat_ok (a : axis) (i j k : nat) : Prop :=
    match a with
    | AX => (i <= nx /\ j < ny /\ k < nz)%nat
    | AY => (i < nx /\ j <= ny /\ k < nz)%nat
    | AZ => (i < nx /\ j < ny /\ k <= nz)%nat
    end.
  Definition lat_mid (a : axis) (i j k : nat) : vec3 :=
    match a with
    | AX => (INR i * hx, (INR j + 1 / 2) * hy, (INR k + 1 / 2) * hz)
    | AY => ((INR i + 1 / 2) * hx, INR j * hy, (INR k + 1 / 2) * hz)
    | AZ => ((INR i + 1 / 2) * hx, (INR j + 1 / 2) * hy, INR k * hz)
    end.
  Lemma hx_pos : 0 < hx. Proof. apply step_pos; [exact Hx|]. now apply cells_spec. Qed.
  Lemma hy_pos : 0 < hy. Proof. apply step_pos; [exact Hy|]. now apply cells_spec. Qed.
  Lemma hz_pos : 0 < hz. Proof. apply step_pos; [exact Hz|]. now apply cells_spec. Qed.
  Lemma hx_len : INR nx * hx = xl. Proof. exact (step_len xl size Hx Hs). Qed.
  Lemma hy_len : INR ny * hy = yl. Proof. exact (step_len yl size Hy Hs). Qed.
  Lemma hz_len : INR nz * hz = zl. Proof. exact (step_len zl size Hz Hs). Qed.
  Lemma node_val i j k : (i <= nx)%nat -> (j <= ny)%nat -> (k <= nz)%nat -> nth (nn i j k) (m_p m) v0 = (INR i * hx, INR j * hy, INR k * hz).
  Proof. intros. rewrite (node_at xl yl zl size) by assumption. reflexivity. Qed.
  Lemma mid_lat a i j k : lat_ok a i j k -> midpoint (m_p m) (lat a i j k) = lat_mid a i j k.
  Proof.
    intros H. change (0, 0, 0) with v0. unfold midpoint. change (0, 0, 0) with v0.
    destruct a; cbn [lat lat_ok lat_mid map] in *; rewrite !node_val by lia; unfold mean, rsum; cbn [fold_right List.length vx vy vz fst snd];
      rewrite !plus_INR; change (INR 4) with (1 + 1 + 1 + 1); change (INR 1) with 1; apply (f_equal2 pair); [apply (f_equal2 pair)| |apply (f_equal2 pair)| |apply (f_equal2 pair)|]; field.
  Qed.
  Lemma in_cells e : In e (m_t m) <-> exists i j k, (i < nx)%nat /\ (j < ny)%nat /\ (k < nz)%nat /\ e = hex_of d i j k.
  Proof.
    split.
    - intros H. apply (In_nth _ _ []) in H. destruct H as (q & Hq & <-). destruct (cell_at xl yl zl size Hx Hy Hz Hs q Hq) as (i & j & k & A & B & C & _ & E).
      exists i, j, k. repeat split; assumption.
    - intros (i & j & k & A & B & C & ->). destruct (cell_of xl yl zl size Hx Hy Hz Hs i j k A B C) as (L & E). assert (E' : nth (j + ny * (i + nx * k)) (m_t m) [] = hex_of d i j k) by exact E. rewrite <- E'. now apply nth_In.
  Qed.
  Lemma face_lat i j k F : (i < nx)%nat -> (j < ny)%nat -> (k < nz)%nat -> In F skfem_facets ->
    exists a i' j' k', lat_ok a i' j' k' /\ Permutation (map (nd (hex_of d i j k)) F) (lat a i' j' k').
  Proof.
    intros A B C H. cbn [In skfem_facets] in H. unfold hex_of, nd. cbv zeta.
    destruct H as [<-|[<-|[<-|[<-|[<-|[<-|[]]]]]]]; cbn [map nth].
    - exists AZ, i, j, k. split; [cbn; lia|]. apply perm4a.
    - exists AY, i, j, k. split; [cbn; lia|]. apply perm4b.
    - exists AX, i, j, k. split; [cbn; lia|]. apply perm4a.
    - exists AX, (i + 1)%nat, j, k. split; [cbn; lia|]. apply perm4b.
    - exists AY, i, (j + 1)%nat, k. split; [cbn; lia|]. apply perm4a.
    - exists AZ, i, j, (k + 1)%nat. split; [cbn; lia|]. apply perm4b.
  Qed.
  (* the cell below (or at) a lattice facet *)
  Lemma lat_face a i j k : lat_ok a i j k -> exists e F, In e (m_t m) /\ In F skfem_facets /\ Permutation (map (nd e) F) (lat a i j k).
  Proof.
    intros H. assert (Px1 : (1 <= nx)%nat) by (unfold nx; now apply cells_spec). assert (Py1 : (1 <= ny)%nat) by (unfold ny; now apply cells_spec).
    assert (Pz1 : (1 <= nz)%nat) by (unfold nz; now apply cells_spec). destruct a; cbn [lat_ok] in H.
    - destruct (Nat.eq_dec i nx) as [E|E].
      + exists (hex_of d (i - 1) j k), [2; 4; 7; 6]%nat. split; [apply in_cells; exists (i - 1)%nat, j, k; repeat split; lia|]. split; [cbn; tauto|].
        { unfold hex_of, nd. cbv zeta. cbn [map nth]. cbn [lat]. replace (i - 1 + 1)%nat with i by lia. apply perm4b. }
      + exists (hex_of d i j k), [0; 3; 5; 1]%nat. split; [apply in_cells; exists i, j, k; repeat split; lia|]. split; [cbn; tauto|].
        unfold hex_of, nd. cbv zeta. cbn [map nth]. apply perm4a.
    - destruct (Nat.eq_dec j ny) as [E|E].
      + exists (hex_of d i (j - 1) k), [1; 5; 7; 4]%nat. split; [apply in_cells; exists i, (j - 1)%nat, k; repeat split; lia|]. split; [cbn; tauto|].
        { unfold hex_of, nd. cbv zeta. cbn [map nth]. cbn [lat]. replace (j - 1 + 1)%nat with j by lia. apply perm4a. }
      + exists (hex_of d i j k), [0; 2; 6; 3]%nat. split; [apply in_cells; exists i, j, k; repeat split; lia|]. split; [cbn; tauto|].
        unfold hex_of, nd. cbv zeta. cbn [map nth]. apply perm4b.
    - destruct (Nat.eq_dec k nz) as [E|E].
      + exists (hex_of d i j (k - 1)), [3; 6; 7; 5]%nat. split; [apply in_cells; exists i, j, (k - 1)%nat; repeat split; lia|]. split; [cbn; tauto|].
        { unfold hex_of, nd. cbv zeta. cbn [map nth]. cbn [lat]. replace (k - 1 + 1)%nat with k by lia. apply perm4b. }
      + exists (hex_of d i j k), [0; 1; 4; 2]%nat. split; [apply in_cells; exists i, j, k; repeat split; lia|]. split; [cbn; tauto|].
        unfold hex_of, nd. cbv zeta. cbn [map nth]. apply perm4a.
  Qed.
  Variable facets : list (list nat).
  Hypothesis (Hen : enumerates_facets (m_t m) facets).
  Lemma facet_lat f : (f < List.length facets)%nat -> exists a i j k, lat_ok a i j k /\ Permutation (nth f facets []) (lat a i j k) /\
    midpoint (m_p m) (nth f facets []) = lat_mid a i j k.
  Proof.
    intros Hf. destruct Hen as (E1 & _ & _). destruct (E1 f Hf) as (e & F & He & HF & HP). apply in_cells in He.
    destruct He as (i & j & k & A & B & C & ->). destruct (face_lat i j k F A B C HF) as (a & i' & j' & k' & Ho & HP2).
    exists a, i', j', k'. assert (P : Permutation (nth f facets []) (lat a i' j' k')) by now rewrite HP.
    split; [exact Ho|]. split; [exact P|]. rewrite (mid_perm _ _ _ P). now apply mid_lat.
  Qed.
  Lemma lat_facet a i j k : lat_ok a i j k -> exists f, (f < List.length facets)%nat /\ Permutation (nth f facets []) (lat a i j k) /\
    midpoint (m_p m) (nth f facets []) = lat_mid a i j k.
  Proof.
    intros Ho. destruct (lat_face a i j k Ho) as (e & F & He & HF & HP). destruct Hen as (_ & E2 & _). destruct (E2 e F He HF) as (f & Hf & HP2).
    exists f. assert (P : Permutation (nth f facets []) (lat a i j k)) by now rewrite HP2.
    split; [exact Hf|]. split; [exact P|]. rewrite (mid_perm _ _ _ P). now apply mid_lat.
  Qed.
  (* a facet is selected iff its lattice midpoint is in the box *)
  Lemma selected test f : In f (satisfying (m_p m) facets test) <-> exists a i j k, (f < List.length facets)%nat /\ lat_ok a i j k /\
    Permutation (nth f facets []) (lat a i j k) /\ test (lat_mid a i j k) = true.
  Proof.
    rewrite satisfying_in. split.
    - intros (Hf & Ht). destruct (facet_lat f Hf) as (a & i & j & k & Ho & HP & HM). exists a, i, j, k. rewrite HM in Ht. tauto.
    - intros (a & i & j & k & Hf & Ho & HP & Ht). split; [exact Hf|]. now rewrite (mid_perm _ _ _ HP), mid_lat.
  Qed.
  Lemma node_selected test n : node_of facets (satisfying (m_p m) facets test) n <->
    exists a i j k, lat_ok a i j k /\ In n (lat a i j k) /\ test (lat_mid a i j k) = true.
  Proof.
    split.
    - intros (f & Hf & Hn). apply selected in Hf. destruct Hf as (a & i & j & k & _ & Ho & HP & Ht). exists a, i, j, k.
      split; [exact Ho|]. split; [|exact Ht]. now apply (Permutation_in n HP).
    - intros (a & i & j & k & Ho & Hn & Ht). destruct (lat_facet a i j k Ho) as (f & Hf & HP & HM). exists f. split.
      + apply satisfying_in. split; [exact Hf|]. now rewrite HM.
      + now apply (Permutation_in n (Permutation_sym HP)).
  Qed.
  Lemma node_index n : (n < List.length (m_p m))%nat -> exists i j k, (i <= nx)%nat /\ (j <= ny)%nat /\ (k <= nz)%nat /\ n = nn i j k.
  Proof.
    intros Hn. destruct (box_sizes xl yl zl size Hx Hy Hz Hs) as (_ & _ & _ & _ & L). fold m in L. rewrite L in Hn. fold nx ny nz in Hn.
    destruct (grid_index (ny + 1) (nx + 1) (nz + 1) n) as (i & j & k & A & B & C & E); [lia|].
    exists i, j, k. split; [lia|]. split; [lia|]. split; [lia|]. exact E.
  Qed.
  Lemma nn_lt i j k : (i <= nx)%nat -> (j <= ny)%nat -> (k <= nz)%nat -> (nn i j k < List.length (m_p m))%nat.
  Proof.
    intros A B C. destruct (box_sizes xl yl zl size Hx Hy Hz Hs) as (_ & _ & _ & _ & L). fold m in L. rewrite L. fold nx ny nz.
    unfold node_number. cbn [d_x d_y d_z d].
    assert (A1 : ((nx + 1) * (k + 1) <= (nx + 1) * (nz + 1))%nat) by (apply Nat.mul_le_mono_l; lia).
    assert (A2 : ((ny + 1) * (i + (nx + 1) * k + 1) <= (ny + 1) * ((nx + 1) * (nz + 1)))%nat) by (apply Nat.mul_le_mono_l; lia). lia.
  Qed.

  (* the nodes a facet at the end x = 0 has *)
  Lemma end_face eps : 0 <= eps ->
    let sel := satisfying (m_p m) facets (points_in_range (0, eps) (0, yl) (0, zl)) in
    (2 * eps < hx ->
       (forall f, In f sel <-> (f < List.length facets)%nat /\ forall n, In n (nth f facets []) -> vx (at_node m n) = 0) /\
       forall n, node_of facets sel n <-> (n < List.length (m_p m))%nat /\ vx (at_node m n) = 0) /\
    (hx <= 2 * eps -> exists n, node_of facets sel n /\ 0 < vx (at_node m n)).
  Proof.
    intros He sel. pose proof hx_pos as Px. pose proof hy_pos as Py. pose proof hz_pos as Pz.
    pose proof hy_len as Ly. pose proof hz_len as Lz. pose proof hx_len as Lx.
    assert (Y : forall j, (j <= ny)%nat -> 0 <= INR j * hy <= yl) by (intros j Hj; pose proof (pos_INR j); apply le_INR in Hj; split; nra).
    assert (Z : forall j, (j <= nz)%nat -> 0 <= INR j * hz <= zl) by (intros j Hj; pose proof (pos_INR j); apply le_INR in Hj; split; nra).
    assert (Yh : forall j, (j < ny)%nat -> 0 <= (INR j + 1 / 2) * hy <= yl).
    { intros j Hj. pose proof (pos_INR j). assert (INR j + 1 <= INR ny) by (rewrite <- S_INR; apply le_INR; lia). split; nra. }
    assert (Zh : forall j, (j < nz)%nat -> 0 <= (INR j + 1 / 2) * hz <= zl).
    { intros j Hj. pose proof (pos_INR j). assert (INR j + 1 <= INR nz) by (rewrite <- S_INR; apply le_INR; lia). split; nra. }
    assert (Px1 : (1 <= nx)%nat) by (unfold nx; apply cells_spec; assumption).
    assert (Py1 : (1 <= ny)%nat) by (unfold ny; apply cells_spec; assumption).
    assert (Pz1 : (1 <= nz)%nat) by (unfold nz; apply cells_spec; assumption).
    split.
    - intros Hlt.
      (* selected lattice facets are the x-facets at 0 *)
      assert (S : forall a i j k, lat_ok a i j k -> (points_in_range (0, eps) (0, yl) (0, zl) (lat_mid a i j k) = true <-> a = AX /\ i = 0%nat)).
      { intros a i j k Ho. rewrite in_range_iff. unfold in_box. destruct a; cbn [lat_mid lat_ok fst snd vx vy vz] in *.
        - split.
          + intros ((_ & U) & _). unfold vx in U. cbn [fst snd] in U. destruct i as [|i]; [tauto|exfalso]. rewrite S_INR in U. pose proof (pos_INR i). nra.
          + intros (_ & ->). unfold vx, vy, vz. cbn [fst snd INR]. destruct Ho as (_ & B & C). specialize (Yh j B). specialize (Zh k C). split; [lra|]. split; assumption.
        - split; [|intros (E & _); discriminate]. intros ((_ & U) & _). unfold vx in U. cbn [fst snd] in U. exfalso. pose proof (pos_INR i). nra.
        - split; [|intros (E & _); discriminate]. intros ((_ & U) & _). unfold vx in U. cbn [fst snd] in U. exfalso. pose proof (pos_INR i). nra. }
      assert (V : forall i j k, (i <= nx)%nat -> (j <= ny)%nat -> (k <= nz)%nat -> (vx (at_node m (nn i j k)) = 0 <-> i = 0%nat)).
      { intros i j k A B C. unfold at_node. rewrite node_val by assumption. unfold vx. cbn [fst snd]. split.
        - destruct i as [|i]; [reflexivity|]. rewrite S_INR. pose proof (pos_INR i). intros U. exfalso. nra.
        - intros ->. cbn [INR]. lra. }
      split.
      + intros f. unfold sel. rewrite selected. split.
        * intros (a & i & j & k & Hf & Ho & HP & Ht). split; [exact Hf|]. apply S in Ht; [|exact Ho]. destruct Ht as (-> & ->).
          intros n Hn. apply (Permutation_in n HP) in Hn. cbn [lat In lat_ok] in *.
          destruct Hn as [<-|[<-|[<-|[<-|[]]]]]; apply V; lia.
        * intros (Hf & Hall). destruct (facet_lat f Hf) as (a & i & j & k & Ho & HP & _). exists a, i, j, k.
          split; [exact Hf|]. split; [exact Ho|]. split; [exact HP|]. apply S; [exact Ho|].
          assert (Q : forall n, In n (lat a i j k) -> vx (at_node m n) = 0) by (intros n Hn; apply Hall; now apply (Permutation_in n (Permutation_sym HP))).
          destruct a; cbn [lat lat_ok In] in *.
          -- split; [reflexivity|]. apply (V i j k); try lia. apply Q. tauto.
          -- exfalso. assert (i + 1 = 0)%nat; [|lia]. apply (V (i + 1)%nat j k); try lia. apply Q. tauto.
          -- exfalso. assert (i + 1 = 0)%nat; [|lia]. apply (V (i + 1)%nat j k); try lia. apply Q. tauto.
      + intros n. unfold sel. rewrite node_selected. split.
        * intros (a & i & j & k & Ho & Hn & Ht). apply S in Ht; [|exact Ho]. destruct Ht as (-> & ->). cbn [lat lat_ok In] in *.
          destruct Hn as [<-|[<-|[<-|[<-|[]]]]]; (split; [apply nn_lt; lia|apply V; lia]).
        * intros (Hn & H0). destruct (node_index n Hn) as (i & j & k & A & B & C & ->). apply V in H0; [|assumption..]. subst i.
          exists AX, 0%nat, (if Nat.eq_dec j ny then j - 1 else j)%nat, (if Nat.eq_dec k nz then k - 1 else k)%nat.
          assert (Ho : lat_ok AX 0%nat (if Nat.eq_dec j ny then j - 1 else j)%nat (if Nat.eq_dec k nz then k - 1 else k)%nat) by (cbn [lat_ok]; destruct (Nat.eq_dec j ny), (Nat.eq_dec k nz); lia).
          split; [exact Ho|]. split; [|apply S; [exact Ho|tauto]]. cbn [lat In].
          destruct (Nat.eq_dec j ny), (Nat.eq_dec k nz); repeat (match goal with |- context [(?q - 1 + 1)%nat] => replace (q - 1 + 1)%nat with q by lia end); tauto.
    - intros Hge. exists (nn 1 0 0). split.
      + apply node_selected. exists AY, 0%nat, 0%nat, 0%nat. split; [cbn [lat_ok]; lia|]. split; [cbn [lat In]; tauto|].
        apply in_range_iff. unfold in_box, vx, vy, vz. cbn [lat_mid fst snd INR]. specialize (Zh 0%nat ltac:(lia)). cbn [INR] in Zh. repeat split; try lra.
      + unfold at_node. rewrite node_val by lia. unfold vx. cbn [fst snd INR]. lra.
  Qed.
End box.

(* Clamping the end x = 0 of a box with the range (0, eps): if eps is less than
   half an element these are exactly the facets in that plane, and the clamped
   nodes are exactly the nodes of that plane; otherwise interior facets are taken as well and
   nodes inside the box are clamped. *)
Theorem C88_end_face : forall xl yl zl size eps facets, 0 < xl -> 0 < yl -> 0 < zl -> 0 < size -> 0 <= eps ->
  let m := create_box_hex xl yl zl size in
  let h := xl / INR (cells xl size) in
  let sel := satisfying (m_p m) facets (points_in_range (0, eps) (0, yl) (0, zl)) in
  enumerates_facets (m_t m) facets ->
  (2 * eps < h ->
    (forall f, In f sel <-> (f < List.length facets)%nat /\ forall n, In n (nth f facets []) -> vx (at_node m n) = 0) /\
    (forall n, node_of facets sel n <-> (n < List.length (m_p m))%nat /\ vx (at_node m n) = 0)) /\
  (h <= 2 * eps -> exists n, node_of facets sel n /\ 0 < vx (at_node m n)).
Proof. intros. now apply end_face. Qed.
Print Assumptions C88_end_face.

(* ---------- such an enumeration exists for every mesh ---------- *)
Lemma dedup_perm (L : list (list nat)) : exists D, (forall x, In x D -> In x L) /\
  (forall x, In x L -> exists i, (i < List.length D)%nat /\ Permutation (nth i D []) x) /\
  (forall i j, (i < List.length D)%nat -> (j < List.length D)%nat -> Permutation (nth i D []) (nth j D []) -> i = j).
Proof.
  induction L as [|x L (D & A & B & C)].
  - exists []. split; [easy|]. split; [easy|]. intros i j Hi. cbn in Hi. lia.
  - destruct (Classical_Prop.classic (exists i, (i < List.length D)%nat /\ Permutation (nth i D []) x)) as [H|H].
    + exists D. split; [intros y Hy; right; now apply A|]. split; [|exact C]. intros y [<-|Hy]; [exact H|now apply B].
    + exists (x :: D). split; [intros y [<-|Hy]; [now left|right; now apply A]|]. split.
      * intros y [<-|Hy]; [exists 0%nat; split; [cbn; lia|reflexivity]|]. destruct (B y Hy) as (i & Hi & HP). exists (S i). split; [cbn; lia|exact HP].
      * intros [|i] [|j] Hi Hj HP; cbn [nth List.length] in *; [reflexivity| | |].
        -- exfalso. apply H. exists j. split; [lia|]. now apply Permutation_sym.
        -- exfalso. apply H. exists i. split; [lia|exact HP].
        -- f_equal. apply C; [lia|lia|exact HP].
Qed.
Example C88_facets_exist : forall t, exists facets, enumerates_facets t facets.
Proof.
  intros t. destruct (dedup_perm (flat_map (fun e => map (fun F => map (nd e) F) skfem_facets) t)) as (D & A & B & C). exists D.
  split; [|split; [|exact C]].
  - intros i Hi. specialize (A (nth i D []) (nth_In D [] Hi)). apply in_flat_map in A. destruct A as (e & He & HF). apply in_map_iff in HF.
    destruct HF as (F & <- & HF). exists e, F. auto.
  - intros e F He HF. apply B. apply in_flat_map. exists e. split; [exact He|]. apply in_map_iff. now exists F.
Qed.

(* ---------- toy_base ---------- *)
Lemma facet_nodes_iff facets ids l n : facet_nodes facets ids = Ok l -> (In n l <-> node_of facets ids n).
Proof.
  unfold facet_nodes, node_of. destruct (forallb _ ids); [|discriminate]. intros H. injection H as <-. rewrite unique_in, in_concat. split.
  - intros (l & Hl & Hn). apply in_map_iff in Hl. destruct Hl as (i & <- & Hi). now exists i.
  - intros (i & Hi & Hn). exists (nth i facets []). split; [|exact Hn]. apply in_map_iff. now exists i.
Qed.
Lemma facet_nodes_ok facets ids : (forall i, In i ids -> (i < List.length facets)%nat) -> exists l, facet_nodes facets ids = Ok l.
Proof.
  intros H. unfold facet_nodes. replace (forallb (fun i => (i <? List.length facets)%nat) ids) with true; [eexists; reflexivity|].
  symmetry. apply forallb_forall. intros i Hi. apply Nat.ltb_lt. now apply H.
Qed.
Lemma dofs_all_in nodes k : In k (dofs_all nodes) <-> In (k / 3)%nat nodes.
Proof.
  unfold dofs_all. rewrite in_flat_map. pose proof (Nat.div_mod k 3 ltac:(lia)) as E. pose proof (Nat.mod_upper_bound k 3 ltac:(lia)). split.
  - intros (n & Hn & Hk). replace (k / 3)%nat with n; [exact Hn|]. cbn [In] in Hk. lia.
  - intros Hn. exists (k / 3)%nat. split; [exact Hn|]. cbn [In]. lia.
Qed.

(* what from_facets does with one array of support facets and one of load facets *)
Lemma elastic_ok area shape facets m ds fs s v design c :
  (forall i, In i ds -> (i < List.length facets)%nat) -> (forall i, In i fs -> (i < List.length facets)%nat) ->
  Tags_model.dir_to_comp s = Ok c -> (c < 3)%nat ->
  let touched e := (e < List.length (m_t m))%nat /\ exists n, node_of facets fs n /\ In n (nth e (m_t m) []) in
  ((forall e, ~ touched e) -> elastic_from_facets area shape facets m ds fs s v design = Err ValueError) /\
  ((exists e, touched e) -> (exists e, In e design /\ ~ touched e) -> exists dom F,
     elastic_from_facets area shape facets m ds fs s v design = Ok (dom, [F]) /\
     Tags_model.load_vector area shape fs c v = Ok F /\
     (forall k, In k (d_free_dofs dom) <-> (k < 3 * List.length (m_p m))%nat /\ ~ node_of facets ds (k / 3)%nat) /\
     (forall e, In e (d_design dom) <-> In e design /\ ~ touched e)).
Proof.
  intros Hd Hf Hs Hc touched. unfold elastic_from_facets, from_facets.
  destruct (facet_nodes_ok facets ds Hd) as (dn & Ed). destruct (facet_nodes_ok facets fs Hf) as (fn & Ef).
  cbn [facets_dir facets_load]. rewrite Ed, Ef. cbn [bind].
  assert (T : forall e, touches (m_t m) (opt_nodes (Some (Arr fn))) e <-> touched e).
  { intros e. unfold touches, touched. cbn [opt_nodes arg_nodes]. split; intros (A & n & B & C); (split; [exact A|]); exists n; (split; [|exact C]); now apply (facet_nodes_iff facets fs fn n Ef). }
  assert (K : forall e, kept_out (m_t m) (Some (Arr fn)) None None e <-> touched e).
  { intros e. unfold kept_out. rewrite T. intuition discriminate. }
  destruct (C49_errors (m_t m) (3 * List.length (m_p m)) dofs_all (Some (Arr dn)) (Some (Arr fn)) None None design ltac:(intros ll; discriminate) ltac:(intros ll; discriminate) ltac:(intros ll; discriminate)) as (Bad & Good).
  split.
  - intros H. rewrite Bad; [reflexivity|]. left. split; [discriminate|]. intros e He. apply T in He. exact (H e He).
  - intros (e1 & He1) (e2 & He2 & Hn2). destruct Good as (dom & Edom).
    { intros [(_ & B)|[(B & _)|[(B & _)|B]]]; [|now apply B|discriminate|].
      - apply (B e1). now apply T.
      - apply Hn2. apply K. now apply B. }
    rewrite Edom. cbn [bind]. unfold Tags_model.assemble_surface_forces. cbn [Tags_model.to_list List.length Nat.eqb andb Tags_model.assemble].
    rewrite Hs. cbn [bind]. destruct (Tags_model.load_vector area shape fs c v) as [F|] eqn:EF.
    2:{ unfold Tags_model.load_vector in EF. destruct (Nat.ltb_spec c 3); [discriminate|lia]. }
    cbn [bind]. exists dom, F. split; [reflexivity|]. split; [reflexivity|]. split.
    + intros k. assert (Efree : d_free_dofs dom = setdiff1d (seq 0 (3 * List.length (m_p m))) (dofs_all dn)).
      { unfold from_nodes in Edom. cbn [dirichlet_elems bind] in Edom. destruct (loaded_elems (m_t m) (Some (Arr fn))); [|discriminate]. cbn [bind loaded_elems] in Edom.
        destruct (setdiff1d design (olist a)); [discriminate|]. now injection Edom as <-. }
      rewrite Efree, setdiff_in, in_seq, dofs_all_in, (facet_nodes_iff facets ds dn _ Ed). intuition lia.
    + intros e. destruct (C49_loaded_not_designed _ _ _ _ _ _ _ _ _ Edom) as (_ & HD & _). rewrite HD, K. tauto.
Qed.

Section toy.
  Variable size : R.
  Hypothesis (Hs : 0 < size).
  Let m := toy_mesh size.
  Let nx := cells 8 size. Let ny := cells 6 size. Let nz := cells 4 size.
  Let hx := 8 / INR nx. Let hy := 6 / INR ny. Let hz := 4 / INR nz.
  Variable facets : list (list nat).
  Hypothesis (Hen : enumerates_facets (m_t m) facets).
  Let P8 : 0 < 8 := ltac:(lra). Let P6 : 0 < 6 := ltac:(lra). Let P4 : 0 < 4 := ltac:(lra).
  Let Lx : INR nx * hx = 8 := hx_len 8 size P8 Hs.
  Let Ly : INR ny * hy = 6 := hy_len 6 size P6 Hs.
  Let Lz : INR nz * hz = 4 := hz_len 4 size P4 Hs.
  Let Qx : 0 < hx := hx_pos 8 size P8 Hs.
  Let Qy : 0 < hy := hy_pos 6 size P6 Hs.
  Let Qz : 0 < hz := hz_pos 4 size P4 Hs.
  Let lat' := lat 8 6 4 size.
  Let ok' := lat_ok 8 6 4 size.
  Let mid' := lat_mid 8 6 4 size.
  Lemma toy_small : hx <= size /\ hy <= size /\ hz <= size.
  Proof. split; [|split]; apply C80_fewest_cells; assumption. Qed.
  (* every element centre is in the box *)
  Lemma toy_design_all e : In e (satisfying (m_p m) (m_t m) toy_design) <-> (e < List.length (m_t m))%nat.
  Proof.
    rewrite satisfying_in. split; [tauto|]. intros He. split; [exact He|].
    assert (Hne : nth e (m_t m) [] <> []).
    { destruct (cell_at 8 6 4 size P8 P6 P4 Hs e He) as (i & j & k & _ & _ & _ & _ & E). intros E'. apply (eq_trans (eq_sym E)) in E'. discriminate. }
    destruct (C88_selection (m_p m) (m_t m) (0, 8) (0, 6) (0, 4) e He Hne) as (_ & G & _).
    assert (I : In e (satisfying (m_p m) (m_t m) (points_in_range (0, 8) (0, 6) (0, 4)))).
    { apply G. intros n Hn. destruct (cell_at 8 6 4 size P8 P6 P4 Hs e He) as (i & j & k & A & B & C & _ & E). 
      pose proof (eq_ind _ (fun l => In n l) Hn _ E) as Hn'. clear Hn. apply (in_hex 8 6 4 size) in Hn'. rename Hn' into Hn. destruct Hn as (a & b & c & Ha & Hb & Hc & ->). fold nx ny nz in A, B, C |- *.
      assert (V : nth (node_number {| d_x := nx; d_y := ny; d_z := nz |} a b c) (m_p m) v0 = (INR a * hx, INR b * hy, INR c * hz)) by (apply (node_val 8 6 4 size); fold nx ny nz; lia).
      rewrite V. unfold in_box, vx, vy, vz. cbn [fst snd]. pose proof (pos_INR a). pose proof (pos_INR b). pose proof (pos_INR c).
      assert (INR a <= INR nx) by (apply le_INR; lia). assert (INR b <= INR ny) by (apply le_INR; lia). assert (INR c <= INR nz) by (apply le_INR; lia).
      split; [split; nra|]. split; split; nra. }
    apply satisfying_in in I. apply I.
  Qed.
  (* the loaded nodes are near the tip *)
  Lemma toy_load_x n : node_of facets (satisfying (m_p m) facets toy_force) n -> 34 / 5 - hx / 2 <= vx (at_node m n).
  Proof.
    intros H. apply (node_selected 8 6 4 size P8 P6 P4 Hs facets Hen) in H. destruct H as (a & i & j & k & Ho & Hn & Ht).
    apply in_range_iff in Ht. destruct Ht as ((Ht & _) & _ & _).
    assert (V : forall u v w, (u <= nx)%nat -> (v <= ny)%nat -> (w <= nz)%nat -> vx (at_node m (node_number {| d_x := nx; d_y := ny; d_z := nz |} u v w)) = INR u * hx).
    { intros u v w A B C. unfold at_node, m, toy_mesh. pose proof (node_val 8 6 4 size u v w A B C) as E. fold nx ny nz in E. rewrite E. reflexivity. }
    unfold vx in Ht at 2. unfold lat_mid, lat, lat_ok in *. fold nx ny nz hx hy hz in Ho, Hn, Ht. unfold vx in Ht. 
    destruct a; cbn [fst snd In] in *; destruct Hn as [<-|[<-|[<-|[<-|[]]]]]; rewrite V by lia; rewrite ?plus_INR; cbn [INR]; try lra; nra.
  Qed.
  Lemma toy_mem a i j k : ok' a i j k -> toy_force (mid' a i j k) = true -> exists f, In f (satisfying (m_p m) facets toy_force) /\ Permutation (nth f facets []) (lat' a i j k).
  Proof.
    intros Ho Ht. destruct (lat_facet 8 6 4 size P8 P6 P4 Hs facets Hen a i j k Ho) as (f & Hf & HP & HM). exists f. split; [|exact HP].
    apply satisfying_in. split; [exact Hf|]. change (midpoint (m_p m) (nth f facets []) = mid' a i j k) in HM. now rewrite HM.
  Qed.
  Lemma toy_centre_y : hy <= 6 / 5 -> exists j, (j < ny)%nat /\ 12 / 5 <= (INR j + 1 / 2) * hy <= 18 / 5.
  Proof.
    intros Hle. destruct (interval 6 ny 3) as (j & Hj & A & B); [lra|apply cells_spec; assumption|lra|]. exists j. split; [exact Hj|].
    unfold linspace in A, B. rewrite plus_INR in B. cbn [INR] in B. fold hy in A, B. split; nra.
  Qed.
  Lemma toy_cells : (1 <= nx /\ 1 <= ny /\ 1 <= nz)%nat.
  Proof. split; [|split]; apply cells_spec; assumption. Qed.
  Lemma last_val n h L : (1 <= n)%nat -> INR n * h = L -> INR (n - 1) * h = L - h.
  Proof. intros H E. rewrite minus_INR by exact H. cbn [INR]. lra. Qed.
End toy.

(* toy_base (toy_test, toy1, toy1_fine) for every mesh size up to 1.2, however the
   facets are numbered and whatever positive areas they have: the whole box is
   offered for design and all of it is designed except the elements at the load;
   the resultant of the load is (0, 0, -100), carried by nodes within 1.8 of the
   tip x = 8; and for mesh sizes from 8/133 on, the prescribed degrees of freedom
   are exactly those of the nodes with x = 0. *)
Theorem C88_toy_base : forall size area shape facets, 0 < size <= 6 / 5 ->
  let m := toy_mesh size in let N := List.length (m_p m) in
  enumerates_facets (m_t m) facets ->
  (forall f, (f < List.length facets)%nat -> Tags_props.facet_ok area shape N f) ->
  (forall f n w, In (n, w) (shape f) -> In n (nth f facets [])) ->
  exists dom F, toy_base area shape facets size = Ok (dom, [F]) /\
    (forall c, (c < 3)%nat -> Tags_props.resultant N F c = if Nat.eqb c 2 then -100 else 0) /\
    (forall n, vx (at_node m n) < 31 / 5 -> Tags_props.unloaded F n) /\
    (8 / 133 <= size -> forall k, In k (d_free_dofs dom) <-> (k < 3 * N)%nat /\ vx (at_node m (k / 3)%nat) <> 0) /\
    (forall e, In e (d_design dom) <-> (e < List.length (m_t m))%nat /\
       forall n, In n (nth e (m_t m) []) -> ~ node_of facets (satisfying (m_p m) facets toy_force) n).
Proof.
  intros size area shape facets (Hs & Hle) m N Hen Harea Hshape.
  assert (P8 : 0 < 8) by lra. assert (P6 : 0 < 6) by lra. assert (P4 : 0 < 4) by lra.
  destruct (toy_small size Hs) as (Sx & Sy & Sz). destruct (toy_cells size Hs) as (Cx & Cy & Cz).
  pose proof (hx_pos 8 size P8 Hs) as Qx. pose proof (hz_pos 4 size P4 Hs) as Qz. pose proof (hx_len 8 size P8 Hs) as Lx. pose proof (hz_len 4 size P4 Hs) as Lz.
  set (nx := cells 8 size) in *. set (ny := cells 6 size) in *. set (nz := cells 4 size) in *. set (hx := 8 / INR nx) in *. set (hz := 4 / INR nz) in *.
  destruct (toy_centre_y size Hs ltac:(fold ny; lra)) as (j & Hj & J). fold ny in Hj, J. set (hy := 6 / INR ny) in *.
  pose proof (last_val nx hx 8 Cx Lx) as Ex. pose proof (last_val nz hz 4 Cz Lz) as Ez.
  set (fs := satisfying (m_p m) facets toy_force). set (ds := satisfying (m_p m) facets toy_dirichlet).
  assert (Hne : exists f, In f fs /\ exists n e, In n (nth f facets []) /\ (e < List.length (m_t m))%nat /\ In n (nth e (m_t m) [])).
  { destruct (toy_mem size Hs facets Hen AZ (nx - 1) j nz) as (f & Hf & HP).
    - unfold lat_ok. fold nx ny nz. lia.
    - apply in_range_iff. unfold lat_mid. fold nx ny nz hx hy hz. unfold in_box, vx, vy, vz. cbn [fst snd]. rewrite Rmult_plus_distr_r, Ex, Lz. split; [lra|]. split; lra.
    - exists f. split; [exact Hf|]. apply satisfying_in in Hf. destruct Hf as (Hf & _). destruct Hen as (E1 & _). destruct (E1 f Hf) as (e & F & He & HF & HP2).
      apply (In_nth _ _ []) in He. destruct He as (q & Hq & Eq). exists (nd e (nth 0 F 0%nat)), q.
      assert (LF : F <> []) by (cbn in HF; intuition (subst; discriminate)). split.
      + apply (Permutation_in _ (Permutation_sym HP2)). apply in_map_iff. exists (nth 0 F 0%nat). split; [reflexivity|]. destruct F; [easy|now left].
      + split; [exact Hq|]. refine (eq_ind_r (fun l => In (nd e (nth 0 F 0%nat)) l) _ Eq). unfold nd. apply nth_In. assert (L8 : List.length e = 8%nat).
        { destruct (cell_at 8 6 4 size P8 P6 P4 Hs q Hq) as (i' & j' & k' & _ & _ & _ & _ & E). rewrite <- Eq. exact (f_equal (@List.length nat) E). }
        rewrite L8. cbn in HF. intuition (subst; cbn; lia). }
  destruct Hne as (f0 & Hf0 & n0 & e0 & Hn0 & He0 & Hne0).
  destruct (elastic_ok area shape facets m ds fs (Tags_model.lit "u^3") (-100) (satisfying (m_p m) (m_t m) toy_design) 2%nat) as (_ & Good).
  { intros i Hi. apply satisfying_in in Hi. apply Hi. }
  { intros i Hi. apply satisfying_in in Hi. apply Hi. }
  { reflexivity. }
  { lia. }
  destruct Good as (dom & F & E1 & E2 & E3 & E4).
  { exists e0. split; [exact He0|]. exists n0. split; [|exact Hne0]. now exists f0. }
  { exists 0%nat. assert (L0 : (0 < List.length (m_t m))%nat) by lia. split; [now apply toy_design_all|]. intros (_ & n & Hn & Hin).
    apply (toy_load_x size Hs facets Hen) in Hn. fold nx hx in Hn.
    destruct (cell_of 8 6 4 size P8 P6 P4 Hs 0 0 0 ltac:(fold nx; lia) ltac:(fold ny; lia) ltac:(fold nz; lia)) as (_ & E). fold nx ny nz in E.
    replace (0 + ny * (0 + nx * 0))%nat with 0%nat in E by lia. pose proof (eq_ind _ (fun l => In n l) Hin _ E) as Hin'. clear Hin. apply (in_hex 8 6 4 size) in Hin'. rename Hin' into Hin.
    destruct Hin as (a & b & c & Ha & Hb & Hc & ->). fold nx ny nz in Hn.
    pose proof (node_val 8 6 4 size a b c ltac:(fold nx; lia) ltac:(fold ny; lia) ltac:(fold nz; lia)) as V. fold nx ny nz hx hy hz in V.
    unfold at_node, toy_mesh in Hn. rewrite V in Hn. unfold vx in Hn. cbn [fst snd] in Hn.
    assert (INR a <= 1) by (change 1 with (INR 1); apply le_INR; lia). nra. }
  exists dom, F. split; [exact E1|].
  assert (Ne : fs <> []) by (intros E; rewrite E in Hf0; destruct Hf0).
  assert (FA : Forall (Tags_props.facet_ok area shape N) fs).
  { apply Forall_forall. intros f Hf. apply Harea. apply satisfying_in in Hf. apply Hf. }
  destruct (Tags_props.load_vector_spec area shape N fs 2 (-100) F E2 Ne FA) as (R1 & R2).
  split; [exact R1|]. split.
  { intros n Hn. apply R2. intros f w Hf Hw. apply Hshape in Hw.
    assert (O : node_of facets fs n) by now exists f. apply (toy_load_x size Hs facets Hen) in O. fold nx hx in O. fold m in O. lra. }
  split.
  - intros Hsz k. rewrite E3. fold N.
    assert (Hnx : (nx <= 133)%nat).
    { unfold nx. apply C80_fewest_cells; try assumption; [lia|]. replace (INR 133) with 133 by (rewrite INR_IZR_INZ; reflexivity). exact Hsz. }
    destruct (end_face 8 6 4 size P8 P6 P4 Hs facets Hen (3 / 100) ltac:(lra)) as (G & _).
    destruct G as (_ & G).
    { fold nx hx. apply (Rmult_lt_reg_l (INR nx)); [apply lt_0_INR; lia|]. rewrite Lx.
      assert (INR nx <= 133) by (replace 133 with (INR 133) by (rewrite INR_IZR_INZ; reflexivity); now apply le_INR). lra. }
    change (create_box_hex 8 6 4 size) with m in G. change (satisfying (m_p m) facets (points_in_range (0, 3 / 100) (0, 6) (0, 4))) with ds in G.
    specialize (G (k / 3)%nat). fold N in G. split.
    + intros (A & B). split; [exact A|]. intros C. apply B. apply G. split; [|exact C]. apply Nat.div_lt_upper_bound; lia.
    + intros (A & B). split; [exact A|]. intros C. apply B. now apply G.
  - intros e. pose proof (toy_design_all size Hs e) as TD. change (toy_mesh size) with m in TD. rewrite E4, TD. split.
    + intros (A & B). split; [exact A|]. intros n Hn O. apply B. split; [exact A|]. now exists n.
    + intros (A & B). split; [exact A|]. intros (_ & n & O & Hn). exact (B n Hn O).
Qed.
Print Assumptions C88_toy_base.

(* REFUTED: "the load acts on the surface".  For every mesh size up to 1.2 one of
   the loaded facets lies between two elements. *)
Theorem C88_refuted_inner_load : forall size facets, 0 < size <= 6 / 5 ->
  let m := toy_mesh size in enumerates_facets (m_t m) facets ->
  exists f e e', In f (satisfying (m_p m) facets toy_force) /\ e <> e' /\
    (e < List.length (m_t m))%nat /\ (e' < List.length (m_t m))%nat /\
    forall n, In n (nth f facets []) -> In n (nth e (m_t m) []) /\ In n (nth e' (m_t m) []).
Proof.
  intros size facets (Hs & Hle) m Hen.
  assert (P8 : 0 < 8) by lra. assert (P6 : 0 < 6) by lra. assert (P4 : 0 < 4) by lra.
  destruct (toy_small size Hs) as (Sx & Sy & Sz). destruct (toy_cells size Hs) as (Cx & Cy & Cz).
  pose proof (hx_pos 8 size P8 Hs) as Qx. pose proof (hz_pos 4 size P4 Hs) as Qz. pose proof (hx_len 8 size P8 Hs) as Lx. pose proof (hz_len 4 size P4 Hs) as Lz.
  destruct (toy_centre_y size Hs ltac:(lra)) as (j & Hj & J).
  set (nx := cells 8 size) in *. set (ny := cells 6 size) in *. set (nz := cells 4 size) in *. set (hx := 8 / INR nx) in *. set (hz := 4 / INR nz) in *. set (hy := 6 / INR ny) in *.
  pose proof (last_val nx hx 8 Cx Lx) as Ex. pose proof (last_val nz hz 4 Cz Lz) as Ez.
  assert (C2 : (2 <= nx)%nat).
  { destruct (Nat.le_gt_cases 2 nx) as [|H]; [assumption|exfalso]. assert (nx = 1%nat) as E by lia. rewrite E in Lx. cbn [INR] in Lx. lra. }
  destruct (toy_mem size Hs facets Hen AX (nx - 1) j (nz - 1)) as (f & Hf & HP).
  - unfold lat_ok. fold nx ny nz. lia.
  - apply in_range_iff. unfold lat_mid. fold nx ny nz hx hy hz. unfold in_box, vx, vy, vz. cbn [fst snd]. rewrite (Rmult_plus_distr_r (INR (nz - 1))), Ex, Ez. split; [lra|]. split; lra.
  - exists f. destruct (cell_of 8 6 4 size P8 P6 P4 Hs (nx - 1) j (nz - 1) ltac:(fold nx; lia) Hj ltac:(fold nz; lia)) as (L1 & E1).
    destruct (cell_of 8 6 4 size P8 P6 P4 Hs (nx - 2) j (nz - 1) ltac:(fold nx; lia) Hj ltac:(fold nz; lia)) as (L2 & E2).
    fold nx ny nz in L1, E1, L2, E2. eexists. eexists. split; [exact Hf|]. split; [|split; [exact L1|split; [exact L2|]]].
    + intros E. apply lattice_inj in E; lia.
    + intros n Hn. apply (Permutation_in n HP) in Hn. unfold lat in Hn. fold nx ny nz in Hn. split.
      * refine (eq_ind_r (fun l => In n l) _ E1). apply (in_hex 8 6 4 size). fold nx ny nz.
        cbn [In] in Hn. destruct Hn as [<-|[<-|[<-|[<-|[]]]]]; do 3 eexists; (split; [|split; [|split; [|reflexivity]]]); lia.
      * refine (eq_ind_r (fun l => In n l) _ E2). apply (in_hex 8 6 4 size). fold nx ny nz.
        cbn [In] in Hn. destruct Hn as [<-|[<-|[<-|[<-|[]]]]]; do 3 eexists; (split; [|split; [|split; [|reflexivity]]]); lia.
Qed.
Print Assumptions C88_refuted_inner_load.

(* REFUTED: "only the plane x = 0 is clamped" for mesh sizes below 8/133 *)
Theorem C88_refuted_fine_support : forall size facets, 0 < size < 8 / 133 ->
  let m := toy_mesh size in enumerates_facets (m_t m) facets ->
  exists n, node_of facets (satisfying (m_p m) facets toy_dirichlet) n /\ 0 < vx (at_node m n).
Proof.
  intros size facets (Hs & Hlt) m Hen.
  destruct (end_face 8 6 4 size ltac:(lra) ltac:(lra) ltac:(lra) Hs facets Hen (3 / 100) ltac:(lra)) as (_ & G). apply G.
  pose proof (step_len 8 size ltac:(lra) Hs) as Lx. pose proof (step_pos 8 (cells 8 size) ltac:(lra) (proj1 (cells_spec 8 size ltac:(lra) Hs))) as Q.
  set (nx := cells 8 size) in *. assert (H : (134 <= nx)%nat).
  { destruct (Nat.le_gt_cases 134 nx) as [|H]; [assumption|exfalso]. destruct (C80_fewest_cells 8 size ltac:(lra) Hs) as (_ & H2 & _). fold nx in H2.
    assert (INR nx <= 133) by (replace 133 with (INR 133) by (rewrite INR_IZR_INZ; reflexivity); apply le_INR; lia). nra. }
  assert (134 <= INR nx) by (replace 134 with (INR 134) by (rewrite INR_IZR_INZ; reflexivity); now apply le_INR). nra.
Qed.
Print Assumptions C88_refuted_fine_support.

(* coarse meshes: from 3 on the load range contains no facet centre and the
   problem cannot be built *)
Theorem C88_coarse : forall size area shape facets, 3 <= size -> enumerates_facets (m_t (toy_mesh size)) facets ->
  toy_base area shape facets size = Err ValueError.
Proof.
  intros size area shape facets H3 Hen. assert (Hs : 0 < size) by lra.
  assert (P8 : 0 < 8) by lra. assert (P6 : 0 < 6) by lra. assert (P4 : 0 < 4) by lra.
  pose proof (step_len 8 size P8 Hs) as Lx. pose proof (step_len 6 size P6 Hs) as Ly. pose proof (step_len 4 size P4 Hs) as Lz.
  destruct (toy_cells size Hs) as (Cx & Cy & Cz).
  pose proof (step_pos 8 _ P8 Cx) as Qx. pose proof (step_pos 6 _ P6 Cy) as Qy. pose proof (step_pos 4 _ P4 Cz) as Qz.
  pose proof (proj2 (proj2 (C80_fewest_cells 8 size P8 Hs)) 3%nat ltac:(lia) ltac:(cbn; lra)) as Bx.
  pose proof (proj2 (proj2 (C80_fewest_cells 6 size P6 Hs)) 2%nat ltac:(lia) ltac:(cbn; lra)) as By.
  pose proof (proj2 (proj2 (C80_fewest_cells 4 size P4 Hs)) 2%nat ltac:(lia) ltac:(cbn; lra)) as Bz.
  assert (Byz : cells 6 size = 1%nat -> cells 4 size = 1%nat).
  { intros E. destruct (C80_fewest_cells 6 size P6 Hs) as (_ & H6 & _). rewrite E in H6. cbn [INR] in H6.
    pose proof (proj2 (proj2 (C80_fewest_cells 4 size P4 Hs)) 1%nat ltac:(lia) ltac:(cbn; lra)). lia. }
  assert (Empty : satisfying (m_p (toy_mesh size)) facets toy_force = []).
  { destruct (satisfying (m_p (toy_mesh size)) facets toy_force) as [|f l] eqn:E; [reflexivity|exfalso].
    assert (Hf : In f (satisfying (m_p (toy_mesh size)) facets toy_force)) by (rewrite E; now left). clear E.
    apply (selected 8 6 4 size P8 P6 P4 Hs facets Hen) in Hf. destruct Hf as (a & i & j & k & _ & Ho & _ & Ht).
    apply in_range_iff in Ht. destruct Ht as ((X1 & _) & (Y1 & Y2) & (Z1 & Z2)). unfold lat_mid, lat_ok, vx, vy, vz in *.
    set (nx := cells 8 size) in *. set (ny := cells 6 size) in *. set (nz := cells 4 size) in *.
    set (hx := 8 / INR nx) in *. set (hy := 6 / INR ny) in *. set (hz := 4 / INR nz) in *.
    assert (Hhx : 8 <= 3 * hx) by (assert (INR nx <= 3) by (replace 3 with (INR 3) by (cbn; lra); now apply le_INR); nra).
    assert (Q : forall i', (i' < nx)%nat -> (INR i' + 1 / 2) * hx < 34 / 5).
    { intros i' Hi. assert (INR i' + 1 <= INR nx) by (rewrite <- S_INR; apply le_INR; lia). nra. }
    destruct a; cbn [fst snd] in *.
    - destruct Ho as (_ & Hj & Hk).
      assert (nz = 1 \/ nz = 2)%nat as [N|N] by lia.
      + rewrite N in *. cbn [INR] in Lz. assert (k = 0%nat) by lia. subst k. cbn [INR] in Z1. lra.
      + assert (ny = 2)%nat as M by (destruct (Nat.eq_dec ny 1) as [M1|]; [specialize (Byz M1); lia|lia]).
        rewrite M in *. cbn [INR] in Ly. assert (j = 0 \/ j = 1)%nat as [-> | ->] by lia; cbn [INR] in Y1, Y2; lra.
    - specialize (Q i (proj1 Ho)). lra.
    - specialize (Q i (proj1 Ho)). lra. }
  unfold toy_base. rewrite Empty.
  destruct (elastic_ok area shape facets (toy_mesh size) (satisfying (m_p (toy_mesh size)) facets toy_dirichlet) [] (Tags_model.lit "u^3") (-100) (satisfying (m_p (toy_mesh size)) (m_t (toy_mesh size)) toy_design) 2%nat) as (Bad & _).
  { intros i Hi. apply satisfying_in in Hi. apply Hi. }
  { intros i []. }
  { reflexivity. }
  { lia. }
  apply Bad. intros e (_ & n & (i & [] & _) & _).
Qed.
Print Assumptions C88_coarse.

(* ---------- reading meshes ---------- *)
(* The two readers accept the same files - those with tetrahedra or hexahedra -
   and agree unless a file has both, when they read different parts of it. *)
Theorem C88_readers : forall types,
  let tet := In (Tags_model.lit "tetra") types in let hex := In (Tags_model.lit "hexahedron") types in
  (load_mesh_auto types = Err ValueError <-> ~ tet /\ ~ hex) /\
  (basis_from_file types = Err ValueError <-> ~ tet /\ ~ hex) /\
  (tet /\ ~ hex -> load_mesh_auto types = Ok MeshTet /\ basis_from_file types = Ok MeshTet) /\
  (hex /\ ~ tet -> load_mesh_auto types = Ok MeshHex /\ basis_from_file types = Ok MeshHex) /\
  (tet /\ hex -> load_mesh_auto types = Ok MeshTet /\ basis_from_file types = Ok MeshHex).
Proof.
  intros types tet hex.
  assert (H : forall k, has_type k types = true <-> In k types).
  { intros k. unfold has_type. rewrite existsb_exists. split.
    - intros (x & Hx & E). apply Ckpt_proofs.name_eqb_true in E. now subst.
    - intros Hk. exists k. split; [exact Hk|]. now apply Ckpt_proofs.name_eqb_true. }
  pose proof (H (Tags_model.lit "tetra")) as Ht. pose proof (H (Tags_model.lit "hexahedron")) as Hh. fold tet in Ht. fold hex in Hh.
  unfold load_mesh_auto, basis_from_file.
  destruct (has_type (Tags_model.lit "tetra") types), (has_type (Tags_model.lit "hexahedron") types);
    repeat split; try discriminate; try reflexivity; intuition (try discriminate; try congruence).
Qed.
Print Assumptions C88_readers.

(* REFUTED: "every named problem of toy_msh can be built".  Whatever the mesh,
   "pull" and "pull_2" raise (a trailing comma turns their x range into a tuple
   holding a pair), and so do other names; only "down" and "down_box" return. *)
Theorem C88_toy_msh_names : forall area shape facets types m name r,
  toy_msh area shape facets types m name = Ok r ->
  (name = Tags_model.lit "down" \/ name = Tags_model.lit "down_box") /\
  (In (Tags_model.lit "tetra") types \/ In (Tags_model.lit "hexahedron") types).
Proof.
  intros area shape facets types m name r H. unfold toy_msh in H.
  destruct (C88_readers types) as (R1 & _). destruct (load_mesh_auto types) as [c|] eqn:El; [|discriminate]. cbn [bind] in H.
  destruct (msh_eps (m_p m)) as [eps|]; [|discriminate]. cbn [bind] in H.
  assert (HT : In (Tags_model.lit "tetra") types \/ In (Tags_model.lit "hexahedron") types).
  { destruct (Classical_Prop.classic (In (Tags_model.lit "tetra") types)) as [|N1]; [now left|].
    destruct (Classical_Prop.classic (In (Tags_model.lit "hexahedron") types)) as [|N2]; [now right|].
    exfalso. assert (Ok c = Err ValueError) by (apply R1; now split). discriminate. }
  unfold msh_lens, msh_force in H.
  destruct (Ckpt_model.name_eqb name (Tags_model.lit "down")) eqn:E1; [split; [left; now apply Ckpt_proofs.name_eqb_true|exact HT]|].
  destruct (Ckpt_model.name_eqb name (Tags_model.lit "down_box")) eqn:E2; [split; [right; now apply Ckpt_proofs.name_eqb_true|exact HT]|].
  exfalso. destruct (Ckpt_model.name_eqb name (Tags_model.lit "pull")); [cbn [range_of bind] in H; discriminate|].
  destruct (Ckpt_model.name_eqb name (Tags_model.lit "pull_2")); [cbn [range_of bind] in H; discriminate|discriminate].
Qed.
Print Assumptions C88_toy_msh_names.

(* squared distance *)
Definition dist2 (a b : vec3) : R :=
  (vx a - vx b) * (vx a - vx b) + (vy a - vy b) * (vy a - vy b) + (vz a - vz b) * (vz a - vz b).
(* "down" and "down_box": what is loaded and what is held *)
Theorem C88_toy_msh_down : forall area shape facets types m name dom Fs,
  toy_msh area shape facets types m name = Ok (dom, Fs) ->
  exists yl eps, (yl = 16 / 100 /\ name = Tags_model.lit "down" \/ yl = 3 /\ name = Tags_model.lit "down_box") /\
    (* eps is 0.8 times the distance from node 0 to the nearest other node *)
    0 <= eps /\ (exists n, (0 < n < List.length (m_p m))%nat /\ eps * eps = 64 / 100 * dist2 (at_node m n) (at_node m 0)) /\
    (forall n, (0 < n < List.length (m_p m))%nat -> eps * eps <= 64 / 100 * dist2 (at_node m n) (at_node m 0)) /\
    let mid := if Ckpt_model.name_eqb name (Tags_model.lit "down") then (yl / 2 - eps, yl / 2 + eps) else (0, yl) in
    let held := satisfying (m_p m) facets (points_in_range (0, 5 / 100) (0, yl) (0, 2)) in
    let loaded := satisfying (m_p m) facets (points_in_range (4 - eps, 4 + 5 / 100) mid (0, eps)) in
    (forall k, In k (d_free_dofs dom) <-> (k < 3 * List.length (m_p m))%nat /\ ~ node_of facets held (k / 3)%nat) /\
    exists F, Fs = [F] /\ Tags_model.load_vector area shape loaded 2 (-800) = Ok F.
Proof.
  intros area shape facets types m name dom Fs H. pose proof (C88_toy_msh_names _ _ _ _ _ _ _ H) as (Hname & _).
  unfold toy_msh in H. destruct (load_mesh_auto types) as [c|]; [|discriminate]. cbn [bind] in H.
  destruct (msh_eps (m_p m)) as [eps|] eqn:Ee; [|discriminate]. cbn [bind] in H.
  assert (HE : 0 <= eps /\ (exists n, (0 < n < List.length (m_p m))%nat /\ eps * eps = 64 / 100 * dist2 (at_node m n) (at_node m 0)) /\
    (forall n, (0 < n < List.length (m_p m))%nat -> eps * eps <= 64 / 100 * dist2 (at_node m n) (at_node m 0))).
  { clear H. unfold msh_eps in Ee. unfold at_node. destruct (m_p m) as [|a [|b r]]; [discriminate|discriminate|]. injection Ee as <-.
    assert (G : forall l x, exists y, In y (x :: l) /\ rmin_list (sub_norm x a) (map (fun q => sub_norm q a) l) = sub_norm y a /\ forall z, In z (x :: l) -> sub_norm y a <= sub_norm z a).
    { clear. induction l as [|z l IH]; intros x.
      { exists x. split; [now left|]. split; [reflexivity|]. intros z [<-|[]]. lra. }
      destruct (IH x) as (y & Hy & E & M).
      change (rmin_list (sub_norm x a) (map (fun q => sub_norm q a) (z :: l))) with (Rmin (sub_norm z a) (rmin_list (sub_norm x a) (map (fun q => sub_norm q a) l))). rewrite E.
      unfold Rmin. destruct (Rle_dec (sub_norm z a) (sub_norm y a)) as [L|L].
      - exists z. split; [cbn; tauto|]. split; [reflexivity|]. intros w [<-|[<-|Hw]]; [specialize (M x (or_introl eq_refl)); lra|lra|specialize (M w (or_intror Hw)); lra].
      - exists y. split; [cbn in Hy |- *; tauto|]. split; [reflexivity|]. intros w [<-|[<-|Hw]]; [apply M; now left|lra|apply M; now right]. }
    destruct (G r b) as (y & Hy & -> & M).
    assert (SQ : forall q, sub_norm q a * sub_norm q a = dist2 q a).
    { intros q. unfold sub_norm, dist2. apply sqrt_sqrt. pose proof (Rle_0_sqr (vx q - vx a)). pose proof (Rle_0_sqr (vy q - vy a)). pose proof (Rle_0_sqr (vz q - vz a)). unfold Rsqr in *. lra. }
    assert (P0 : forall q, 0 <= sub_norm q a) by (intros; apply sqrt_pos).
    split; [specialize (P0 y); lra|]. cbn [nth].
    replace (sub_norm y a * (8 / 10) * (sub_norm y a * (8 / 10))) with (64 / 100 * (sub_norm y a * sub_norm y a)) by field. split.
    - apply (In_nth _ _ v0) in Hy. destruct Hy as (q & Hq & Eq). exists (S q). split; [cbn in Hq |- *; lia|].
      change (match q with 0%nat => b | S k => nth k r v0 end) with (nth q (b :: r) v0). rewrite Eq, SQ. reflexivity.
    - intros [|q] Hq; [lia|]. change (match q with 0%nat => b | S k => nth k r v0 end) with (nth q (b :: r) v0). rewrite <- SQ.
      assert (Hq' : (q < List.length (b :: r))%nat) by (cbn [List.length] in Hq |- *; lia). specialize (M (nth q (b :: r) v0) (nth_In _ _ Hq')). specialize (P0 y). nra. }
  destruct HE as (He0 & HE1 & HE2).
  assert (Fin : forall ds fs s v design cc, (forall i, In i ds -> (i < List.length facets)%nat) -> (forall i, In i fs -> (i < List.length facets)%nat) ->
     Tags_model.dir_to_comp s = Ok cc -> (cc < 3)%nat -> elastic_from_facets area shape facets m ds fs s v design = Ok (dom, Fs) ->
     (forall k, In k (d_free_dofs dom) <-> (k < 3 * List.length (m_p m))%nat /\ ~ node_of facets ds (k / 3)%nat) /\
     exists F, Fs = [F] /\ Tags_model.load_vector area shape fs cc v = Ok F).
  { intros ds fs s v design cc Hd Hf Hsd Hcc E.
    destruct (elastic_ok area shape facets m ds fs s v design cc Hd Hf Hsd Hcc) as (Bad & Good).
    set (touched := fun e => (e < List.length (m_t m))%nat /\ exists n, node_of facets fs n /\ In n (nth e (m_t m) [])) in *.
    destruct (Classical_Prop.classic (exists e, touched e)) as [T|T]; [|rewrite Bad in E; [discriminate|intros e He; apply T; now exists e]].
    destruct (Classical_Prop.classic (exists e, In e design /\ ~ touched e)) as [T2|T2].
    - destruct (Good T T2) as (dom' & F & E1 & E2 & E3 & _). rewrite E in E1. injection E1 as <- ->. split; [exact E3|]. now exists F.
    - exfalso. unfold elastic_from_facets, from_facets in E. destruct (facet_nodes_ok facets ds Hd) as (dn & Ed). destruct (facet_nodes_ok facets fs Hf) as (fn & Ef).
      cbn [facets_dir facets_load] in E. rewrite Ed, Ef in E. cbn [bind] in E.
      destruct (from_nodes (m_t m) (3 * List.length (m_p m)) dofs_all (Some (Arr dn)) (Some (Arr fn)) None None design) as [dm|] eqn:Edm; [|discriminate].
      destruct (C49_loaded_not_designed _ _ _ _ _ _ _ _ _ Edm) as (_ & HD & _ & Hne). destruct (d_design dm) as [|e0 l] eqn:EDm; [now apply Hne|].
      destruct (proj1 (HD e0) (or_introl eq_refl)) as (A & B). apply T2. exists e0. split; [exact A|]. intros (C1 & n & C2 & C3). apply B. left.
      split; [exact C1|]. exists n. split; [|exact C3]. now apply (facet_nodes_iff facets fs fn n Ef). }
  destruct Hname as [-> | ->].
  - cbn [msh_lens msh_force Ckpt_model.name_eqb] in H. unfold msh_lens, msh_force in H.
    change (Ckpt_model.name_eqb (Tags_model.lit "down") (Tags_model.lit "down")) with true in *. cbn [range_of bind] in H.
    exists (16 / 100), eps. split; [left; now split|]. split; [exact He0|]. split; [exact HE1|]. split; [exact HE2|]. cbv zeta.
    refine (Fin _ _ _ _ _ 2%nat _ _ _ _ H); [| |reflexivity|lia]; intros i Hi; apply satisfying_in in Hi; apply Hi.
  - unfold msh_lens, msh_force in H.
    change (Ckpt_model.name_eqb (Tags_model.lit "down_box") (Tags_model.lit "down")) with false in *.
    change (Ckpt_model.name_eqb (Tags_model.lit "down_box") (Tags_model.lit "down_box")) with true in *. cbn [range_of bind] in H.
    exists 3, eps. split; [right; now split|]. split; [exact He0|]. split; [exact HE1|]. split; [exact HE2|]. cbv zeta.
    refine (Fin _ _ _ _ _ 2%nat _ _ _ _ H); [| |reflexivity|lia]; intros i Hi; apply satisfying_in in Hi; apply Hi.
Qed.
Print Assumptions C88_toy_msh_down.

(* fix_elements_orientation accepts exactly the two mesh classes; on tetrahedra
   every signed volume becomes its absolute value, on hexahedra the determinant at
   node 0 does, and no element changes its nodes *)
Theorem C88_orientation : forall c p t,
  (fix_elements_orientation c p t = Err ValueError <-> c = MeshOther) /\
  forall t', fix_elements_orientation c p t = Ok t' -> List.length t' = List.length t /\
   forall i, (i < List.length t)%nat ->
    (c = MeshTet -> List.length (nth i t []) = 4%nat -> signed_volume p (nth i t' []) = Rabs (signed_volume p (nth i t [])) /\ Permutation (nth i t' []) (nth i t [])) /\
    (c = MeshHex -> List.length (nth i t []) = 8%nat -> corner0 p (nth i t' []) = Rabs (corner0 p (nth i t [])) /\ Permutation (nth i t' []) (nth i t [])).
Proof.
  intros c p t. split; [destruct c; cbn; split; easy|]. intros t' H.
  destruct c; cbn [fix_elements_orientation] in H; [| |discriminate]; injection H as <-; unfold fix_tetrahedron_orientation, fix_hexahedron_orientation; rewrite map_length;
    (split; [reflexivity|]); intros i Hi; (split; [|]); try (intros; discriminate); intros _ L;
    rewrite (nth_indep _ [] (fix_tet1 p [])) by (now rewrite map_length).
  - rewrite map_nth. destruct (fix_tet1_spec p _ L) as (A & B & _). rewrite !signed_volume_eq by (try exact L; now rewrite (Permutation_length B)). now split.
  - rewrite (nth_indep _ _ (fix_hex1 p [])) by (now rewrite map_length). rewrite map_nth.
    destruct (nth i t []) as [|n0 [|n1 [|n2 [|n3 r]]]]; try discriminate. destruct (C51_hex_corner p _ n0 n1 n2 n3 r eq_refl) as (A & B & _). now split.
Qed.
Print Assumptions C88_orientation.
