(* Model of the element adjacency helpers: by shared nodes (mesh/utils.py:139-177,
   231-263) and by shared faces (fea/composer.py:351-371, the same code in
   filters/helmholtz_filter_element.py:26-188). *)
From Verif Require Import Base Mesh_model.
Open Scope list_scope.

(* csr_matrix((np.ones(len, uint8), (rows, cols))): duplicates are added, in
   arithmetic modulo 256 *)
Definition count_pair (i j : nat) (ps : list (nat * nat)) : nat :=
  List.length (filter (fun p => Nat.eqb (fst p) i && Nat.eqb (snd p) j)%bool ps).
Definition csr_ones (ps : list (nat * nat)) (i j : nat) : nat := (count_pair i j ps) mod 256.

(* utils.py:139-160 *)
(* np.where((mesh.t == node).any(axis=0))[0] *)
Definition connected (t : list elem) (node : nat) : list nat :=
  map fst (filter (fun en => mem node (snd en)) (enum t)).
Definition slow_pairs (t : list elem) : list (nat * nat) :=
  flat_map (fun en => flat_map (fun node => map (fun j => (fst en, j)) (connected t node)) (snd en)) (enum t).
Definition build_element_adjacency_matrix (t : list elem) : nat -> nat -> nat := csr_ones (slow_pairs t).

(* utils.py:231-254; sets are kept sorted (their order is not observable) *)
Definition fast_neighbors (t : list elem) : table :=
  fold_left (fun nb ne =>
    fold_left (fun nb e1 =>
      fold_left (fun nb e2 => if Nat.eqb e1 e2 then nb else tadd e1 e2 nb) (snd ne) nb) (snd ne) nb)
    (node_table t) [].
Definition fast_pairs (t : list elem) : list (nat * nat) :=
  flat_map (fun ea => map (fun a => (fst ea, a)) (snd ea)) (fast_neighbors t).
Definition build_element_adjacency_matrix_fast (t : list elem) : nat -> nat -> nat := csr_ones (fast_pairs t).

(* adjacency[idx].nonzero()[1]: negative indices count from the end *)
Definition row_nonzero (n : nat) (A : nat -> nat -> nat) (idx : Z) : res (list nat) :=
  let k := if (idx <? 0)%Z then (idx + Z.of_nat n)%Z else idx in
  if ((k <? 0) || (Z.of_nat n <=? k))%Z%bool then Err IndexError
  else Ok (filter (fun j => negb (Nat.eqb (A (Z.to_nat k) j) 0)) (seq 0 n)).
(* utils.py:163-177 and 256-263: the loop, difference_update, sorted *)
Fixpoint collect (n : nat) (A : nat -> nat -> nat) (idxs : list Z) (acc : list nat) : res (list nat) :=
  match idxs with
  | [] => Ok acc
  | i :: r => let! row := row_nonzero n A i in collect n A r (sunion row acc)
  end.
Definition adjacent_in (n : nat) (A : nat -> nat -> nat) (idxs : list Z) : res (list nat) :=
  let! nb := collect n A idxs [] in
  Ok (filter (fun j => negb (existsb (Z.eqb (Z.of_nat j)) idxs)) nb).
Definition get_adjacent_elements (t : list elem) (idxs : list Z) : res (list nat) :=
  adjacent_in (List.length t) (build_element_adjacency_matrix t) idxs.
Definition get_adjacent_elements_fast (t : list elem) (idxs : list Z) : res (list nat) :=
  adjacent_in (List.length t) (build_element_adjacency_matrix_fast t) idxs.

(* ---------- by faces ---------- *)
Fixpoint ins (x : nat) (l : list nat) : list nat :=
  match l with [] => [x] | y :: r => if Nat.leb x y then x :: l else y :: ins x r end.
(* tuple(sorted(...)) *)
Definition sort_nodes (l : list nat) : list nat := fold_right ins [] l.
(* face_to_elements: a defaultdict(list) keyed by sorted node tuples *)
Definition ftable := list (list nat * list nat).
Definition face_eqb (a b : list nat) : bool := if list_eq_dec Nat.eq_dec a b then true else false.
Fixpoint fadd (f : list nat) (e : nat) (tb : ftable) : ftable :=
  match tb with
  | [] => [(f, [e])]
  | (g, v) :: r => if face_eqb f g then (g, v ++ [e]) :: r else (g, v) :: fadd f e r
  end.
(* the node positions of the faces: composer.py:356-361 (tets),
   helmholtz_filter_element.py:68-75, 139-146 (hexes) *)
Definition tet_faces : list (list nat) := [[0; 1; 2]; [0; 1; 3]; [0; 2; 3]; [1; 2; 3]]%nat.
Definition hex_faces : list (list nat) :=
  [[0; 1; 2; 3]; [4; 5; 6; 7]; [0; 1; 5; 4]; [2; 3; 7; 6]; [0; 3; 7; 4]; [1; 2; 6; 5]]%nat.
Definition elem_faces (faces : list (list nat)) (e : elem) : list (list nat) :=
  map (fun pos => sort_nodes (map (nd e) pos)) faces.
Definition face_table (faces : list (list nat)) (t : list elem) : ftable :=
  fold_left (fun tb en => fold_left (fun tb f => fadd f (fst en) tb) (elem_faces faces (snd en)) tb) (enum t) [].
(* composer.py:365-371: the neighbours of element i, in the order appended *)
Definition face_adjacency (faces : list (list nat)) (t : list elem) (i : nat) : list nat :=
  flat_map (fun fe => match snd fe with
                      | [a; b] => (if Nat.eqb a i then [b] else []) ++ (if Nat.eqb b i then [a] else [])
                      | _ => []
                      end) (face_table faces t).
(* composer.adjacency_matrix returns the list over all elements *)
Definition adjacency_matrix (t : list elem) : list (list nat) :=
  map (face_adjacency tet_faces t) (seq 0 (List.length t)).
