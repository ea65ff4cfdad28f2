(* Model of mesh/task_common.py, mesh/utils.py, mesh/visualization.py and the
   volume functions of fea/composer.py.

   A mesh is given by its connectivity, one node list per element (the columns
   of mesh.t, i.e. the rows of mesh.t.T), and its node coordinates (the columns
   of mesh.p).  Real numbers stand for float64. *)
From Verif Require Import Base.
Open Scope R_scope.
Open Scope list_scope.

Definition elem := list nat.
Definition vec3 := (R * R * R)%type.
Record mesh3 := mkMesh { m_t : list elem; m_p : list vec3 }.

Definition mem (x : nat) (l : list nat) : bool := existsb (Nat.eqb x) l.

(* mesh/task_common.py:18-21 and mesh/visualization.py:5-8: a[~np.isin(a, b)] *)
Definition setdiff1d (a b : list nat) : list nat := filter (fun x => negb (mem x b)) a.

(* Python sets of ints are represented by their sorted element list *)
Fixpoint sadd (x : nat) (l : list nat) : list nat :=
  match l with
  | [] => [x]
  | y :: r => if Nat.ltb x y then x :: l else if Nat.eqb x y then l else y :: sadd x r
  end.
Definition sunion (a b : list nat) : list nat := fold_right sadd b a.
(* np.unique of an integer array: sorted, without duplicates *)
Definition np_unique (l : list nat) : list nat := fold_right sadd [] l.

(* the defaultdict node -> set of elements *)
Definition table := list (nat * list nat).
Fixpoint tget (k : nat) (tb : table) : list nat :=
  match tb with
  | [] => []
  | (k', v) :: r => if Nat.eqb k k' then v else tget k r
  end.
Fixpoint tadd (k e : nat) (tb : table) : table :=
  match tb with
  | [] => [(k, [e])]
  | (k', v) :: r => if Nat.eqb k k' then (k', sadd e v) :: r else (k', v) :: tadd k e r
  end.
(* mesh/utils.py:208-212 (also 232-235): for e, nodes in enumerate(mesh.t.T):
   for n in nodes: node_to_elements[n].add(e) *)
Definition enum {A} (l : list A) : list (nat * A) := combine (seq 0 (List.length l)) l.
Definition node_table (t : list elem) : table :=
  fold_left (fun tb en => fold_left (fun tb n => tadd n (fst en) tb) (snd en) tb) (enum t) [].

(* mesh/utils.py:180-228.  The function attribute _cache maps id(mesh) to a
   table and outlives the meshes: a call with an id seen before reuses the table
   built for the first mesh that had this id. *)
Definition cache := list (nat * table).
Fixpoint cget (k : nat) (c : cache) : option table :=
  match c with [] => None | (k', v) :: r => if Nat.eqb k k' then Some v else cget k r end.
Definition lookup (tb : table) (nodes : list nat) : list nat :=
  fold_left (fun acc n => sunion (tget n tb) acc) (np_unique nodes) [].
Definition get_elements_by_nodes (c : cache) (mid : nat) (t : list elem) (nodes : list nat)
  : cache * list nat :=
  let c' := match cget mid c with Some _ => c | None => (mid, node_table t) :: c end in
  (c', match cget mid c' with Some tb => lookup tb nodes | None => [] end).
(* a history of calls, each with the id and the connectivity the mesh then had *)
Record ecall := mkCall { c_id : nat; c_t : list elem; c_nodes : list nat }.
Fixpoint run_calls (c : cache) (cs : list ecall) : list (list nat) :=
  match cs with
  | [] => []
  | k :: r => let (c', out) := get_elements_by_nodes c (c_id k) (c_t k) (c_nodes k) in
              out :: run_calls c' r
  end.
(* the answer given with a cold cache: every first call on a mesh *)
Definition elements_by_nodes (t : list elem) (nodes : list nat) : list nat :=
  snd (get_elements_by_nodes [] 0 t nodes).

(* mesh/task_common.py:97-98 *)
Definition design_mask (nel : nat) (design : list nat) : list bool :=
  map (fun e => mem e design) (seq 0 nel).

(* Boundary node arguments: one array, or a list of arrays *)
Inductive nodes_arg := Arr (l : list nat) | Lst (ll : list (list nat)).
(* np.asarray of a list of arrays: only possible (NumPy >= 1.24) if they have one
   length; np.unique / ravel then flatten it *)
Definition np_flatten (ll : list (list nat)) : res (list nat) :=
  match ll with
  | [] => Ok []
  | a :: r => if forallb (fun b => Nat.eqb (List.length a) (List.length b)) r
              then Ok (List.concat ll) else Err ValueError
  end.

(* the fields of FEMDomain the rest of the model uses *)
Record domain := mkDom {
  d_nel : nat;
  d_dirichlet : option (list nat);        (* dirichlet_elements *)
  d_neumann : option (list nat);          (* neumann_elements *)
  d_robin : option (list nat);            (* robin_elements *)
  d_design : list nat;                    (* design_elements *)
  d_free_dofs : list nat;
  d_free_elements : list nat;
  d_fixed : list nat;                     (* fixed_elements *)
  d_dir_neu : list nat }.                 (* dirichlet_neumann_elements *)

(* mesh/task_common.py:161-163.  The node argument is wrapped once more in a
   list, so a list of arrays is converted to one array first. *)
Definition dirichlet_elems (t : list elem) (a : option nodes_arg) : res (option (list nat)) :=
  match a with
  | None => Ok None
  | Some (Arr l) => Ok (Some (elements_by_nodes t l))
  | Some (Lst ll) => let! l := np_flatten ll in Ok (Some (elements_by_nodes t l))
  end.
(* mesh/task_common.py:172-185 and 190-203: np.concatenate of no arrays, and an
   empty element set, both raise ValueError *)
Definition loaded_elems (t : list elem) (a : option nodes_arg) : res (option (list nat)) :=
  match a with
  | None => Ok None
  | Some a' =>
    let! l := match a' with Arr l => Ok l
              | Lst [] => Err ValueError | Lst ll => Ok (List.concat ll) end in
    let es := elements_by_nodes t l in
    match es with [] => Err ValueError | _ => Ok (Some es) end
  end.
Definition olist (o : option (list nat)) : list nat := match o with Some l => l | None => [] end.
(* mesh/task_common.py:105-270.  [dofs] is basis.get_dofs(nodes=...) followed by
   .all() or .nodal[dir] (scikit-fem), [ndofs] is basis.N; the assertions on the
   types of dirichlet_dir and dirichlet_values are taken to hold; printing and the
   volumes (modelled below) are left out.  design_robin_boundary False without
   Robin nodes concatenates None, a ValueError. *)
Definition from_nodes (t : list elem) (ndofs : nat) (dofs : list nat -> list nat)
    (dirichlet neumann robin : option nodes_arg) (design_robin : option bool)
    (design : list nat) : res domain :=
  let! de := dirichlet_elems t dirichlet in
  let! ne := loaded_elems t neumann in
  let! re := loaded_elems t robin in
  let! excl := match design_robin with
    | Some false => match re with
                    | Some r => Ok (olist ne ++ r) | None => Err ValueError end
    | _ => Ok (olist ne) end in
  let des := setdiff1d design excl in
  match des with
  | [] => Err ValueError
  | _ =>
    let all := seq 0 (List.length t) in
    let fixed := setdiff1d all des in
    let! ddofs := match dirichlet with
      | None => Ok []
      | Some (Arr l) => Ok (dofs l)
      | Some (Lst ll) => np_flatten (map dofs ll) end in
    let free := setdiff1d (seq 0 ndofs) ddofs in
    Ok (mkDom (List.length t) de ne re des free (elements_by_nodes t free) fixed
              (olist de ++ olist ne))
  end.

(* mesh/task_common.py:290-345: np.unique(facets[:, ids].ravel()).  An index out
   of range raises IndexError. *)
Definition facet_nodes (facets : list (list nat)) (ids : list nat) : res (list nat) :=
  if forallb (fun i => Nat.ltb i (List.length facets)) ids
  then Ok (np_unique (List.concat (map (fun i => nth i facets []) ids))) else Err IndexError.
Fixpoint mapres {A B} (f : A -> res B) (l : list A) : res (list B) :=
  match l with
  | [] => Ok []
  | a :: r => let! b := f a in let! bs := mapres f r in Ok (b :: bs)
  end.
Definition facets_dir (facets : list (list nat)) (a : option nodes_arg) : res (option nodes_arg) :=
  match a with
  | None => Ok None
  | Some (Arr ids) => let! l := facet_nodes facets ids in Ok (Some (Arr l))
  | Some (Lst idss) => let! ll := mapres (facet_nodes facets) idss in Ok (Some (Lst ll))
  end.
Definition facets_load (facets : list (list nat)) (a : option nodes_arg) : res (option nodes_arg) :=
  match a with
  | None => Ok None
  | Some (Arr ids) => let! l := facet_nodes facets ids in Ok (Some (Arr l))
  | Some (Lst []) => Err ValueError
  | Some (Lst idss) => let! l := facet_nodes facets (List.concat idss) in Ok (Some (Arr l))
  end.
(* mesh/task_common.py:272-345 *)
Definition from_facets (facets : list (list nat)) (t : list elem) (ndofs : nat)
    (dofs : list nat -> list nat) (dirichlet neumann robin : option nodes_arg)
    (design_robin : option bool) (design : list nat) : res domain :=
  let! dn := facets_dir facets dirichlet in
  let! nn := facets_load facets neumann in
  let! rn := facets_load facets robin in
  let dr := match robin with None => None | _ => design_robin end in
  from_nodes t ndofs dofs dn nn rn dr design.

(* mesh/task_common.py:398-401; np.isin(a, None) is False everywhere *)
Definition exclude_dirichlet (d : domain) : domain :=
  mkDom (d_nel d) (d_dirichlet d) (d_neumann d) (d_robin d)
        (setdiff1d (d_design d) (olist (d_dirichlet d)))
        (d_free_dofs d) (d_free_elements d) (d_fixed d) (d_dir_neu d).

(* ---- geometry ---- *)
Definition vx (v : vec3) := fst (fst v).
Definition vy (v : vec3) := snd (fst v).
Definition vz (v : vec3) := snd v.
Definition vsub (a b : vec3) : vec3 := (vx a - vx b, vy a - vy b, vz a - vz b).
Definition vcross (a b : vec3) : vec3 :=
  (vy a * vz b - vz a * vy b, vz a * vx b - vx a * vz b, vx a * vy b - vy a * vx b).
Definition vdot (a b : vec3) : R := vx a * vx b + vy a * vy b + vz a * vz b.
Definition triple (a b c : vec3) : R := vdot (vcross a b) c.
Definition v0 : vec3 := (0, 0, 0).
Definition pt (p : list vec3) (n : nat) : vec3 := nth n p v0.
Definition nd (e : elem) (k : nat) : nat := nth k e 0%nat.

(* mesh/utils.py:80-87, composer.py:171-174: signed volume of element e *)
Definition tet_vol (p : list vec3) (e : elem) : R :=
  triple (vsub (pt p (nd e 1)) (pt p (nd e 0))) (vsub (pt p (nd e 2)) (pt p (nd e 0)))
         (vsub (pt p (nd e 3)) (pt p (nd e 0))) / 6.
Definition fix_tet1 (p : list vec3) (e : elem) : elem :=
  match e with
  | n0 :: n1 :: n2 :: r => if Rltb (tet_vol p e) 0 then n0 :: n2 :: n1 :: r else e
  | _ => e
  end.
(* mesh/utils.py:57-91 and the numba variant 94-128 *)
Definition fix_tetrahedron_orientation (p : list vec3) (t : list elem) : list elem :=
  map (fix_tet1 p) t.
(* mesh/utils.py:40-52 *)
Definition hex_jac (p : list vec3) (e : elem) : R :=
  triple (vsub (pt p (nd e 1)) (pt p (nd e 0))) (vsub (pt p (nd e 3)) (pt p (nd e 0)))
         (vsub (pt p (nd e 4)) (pt p (nd e 0))).
Definition fix_hex1 (p : list vec3) (e : elem) : elem :=
  match e with
  | n0 :: n1 :: n2 :: n3 :: r => if Rltb (hex_jac p e) 0 then n0 :: n3 :: n2 :: n1 :: r else e
  | _ => e
  end.
(* mesh/utils.py:18-54 *)
Definition fix_hexahedron_orientation (p : list vec3) (t : list elem) : list elem :=
  map (fix_hex1 p) t.

(* composer.py:164-180; the bound -1e-12 is exact here *)
Definition elements_volume_tet (p : list vec3) (t : list elem) : res (list R) :=
  let vs := map (tet_vol p) t in
  if existsb (fun v => Rltb v (- / 1000000000000)) vs then Err ValueError else Ok vs.
(* composer.py:183-188 *)
Definition tet_abs (a b c d : vec3) : R := Rabs (triple (vsub b a) (vsub c a) (vsub d a)) / 6.
(* composer.py:191-248 (and the numba variant 251-311): the six tetrahedra *)
Definition hex_vol (p : list vec3) (e : elem) : R :=
  let q := fun k => pt p (nd e k) in
  tet_abs (q 0%nat) (q 1%nat) (q 3%nat) (q 4%nat) +
  tet_abs (q 1%nat) (q 2%nat) (q 3%nat) (q 6%nat) +
  tet_abs (q 1%nat) (q 5%nat) (q 6%nat) (q 4%nat) +
  tet_abs (q 3%nat) (q 6%nat) (q 7%nat) (q 4%nat) +
  tet_abs (q 1%nat) (q 3%nat) (q 6%nat) (q 4%nat) +
  tet_abs (q 1%nat) (q 6%nat) (q 5%nat) (q 4%nat).
Definition elements_volume_hex (p : list vec3) (t : list elem) : list R := map (hex_vol p) t.

(* mesh/visualization.py:11-34.  Densities by element; the written sub-mesh is
   the result.  np.vectorize refuses an empty array (no output type given), so
   exporting an empty sub-mesh raises ValueError. *)
Fixpoint index_of (x : nat) (l : list nat) : nat :=
  match l with [] => 0%nat | y :: r => if Nat.eqb x y then 0%nat else S (index_of x r) end.
Definition export_submesh (m : mesh3) (design : list nat) (rho : list R) (thr : R) : res mesh3 :=
  let remove := filter (fun e => Rleb (nth e rho 0) thr) design in
  let kept := setdiff1d (seq 0 (List.length (m_t m))) remove in
  let kept_t := map (fun e => nth e (m_t m) []) kept in
  let uniq := np_unique (List.concat kept_t) in
  match List.concat kept_t with
  | [] => Err ValueError
  | _ => Ok (mkMesh (map (map (fun n => index_of n uniq)) kept_t)
                    (map (pt (m_p m)) uniq))
  end.

(* ---- scaling (mesh/task_common.py:403-422, mesh/task_elastic.py:113-125) ----
   neumann_linear is a list of load vectors, or (after the single-load setter) a
   bare array. *)
Inductive loads := LList (ls : list (list R)) | LArr (a : list R).
Record etask := mkTask { et_mesh : mesh3; et_vol : list R; et_loads : loads }.
(* LinearElasticity.n_tasks: len(neumann_linear) *)
Definition n_tasks (k : etask) : nat :=
  match et_loads k with LList ls => List.length ls | LArr a => List.length a end.
Definition vscale (s : R) (v : vec3) : vec3 := (vx v * s, vy v * s, vz v * s).
Definition scale (L F : R) (k : etask) : res etask :=
  let m' := mkMesh (m_t (et_mesh k)) (map (vscale L) (m_p (et_mesh k))) in
  match et_loads k with
  | LList [a] => Ok (mkTask m' (et_vol k) (LArr (map (fun x => x * F) a)))
  | LList ls => Ok (mkTask m' (et_vol k) (LList (map (map (fun x => x * F)) ls)))
  | LArr [_] => Err ValueError
  | LArr a => Ok (mkTask m' (et_vol k) (LArr (map (fun x => x * F) a)))
  end.
