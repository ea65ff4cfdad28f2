(* Model of mesh/utils.py:8-15, the built-in problems of mesh/toy_problem.py:52-250
   and the mesh readers (mesh/toy_problem.py:147-155, mesh/loader.py:9-33). *)
From Verif Require Import Base Mesh_model Box_model.
From Verif Require Tags_model Ckpt_model.
Open Scope R_scope.
Open Scope list_scope.

Definition range := (R * R)%type.
(* mesh/utils.py:8-15: get_points_in_range *)
Definition points_in_range (xr yr zr : range) (q : vec3) : bool :=
  (Rleb (fst xr) (vx q) && Rleb (vx q) (snd xr)) &&
  (Rleb (fst yr) (vy q) && Rleb (vy q) (snd yr)) &&
  (Rleb (fst zr) (vz q) && Rleb (vz q) (snd zr)).

(* scikit-fem's facets_satisfying and elements_satisfying (external): the test is
   applied to the mean of the nodes; interior facets are candidates too, unless
   boundaries_only is set.  [cells] are the node lists of mesh.facets or mesh.t. *)
Definition mean (l : list R) : R := rsum l / INR (List.length l).
Definition midpoint (p : list vec3) (ns : list nat) : vec3 :=
  (mean (map (fun n => vx (nth n p (0, 0, 0))) ns), mean (map (fun n => vy (nth n p (0, 0, 0))) ns),
   mean (map (fun n => vz (nth n p (0, 0, 0))) ns)).
Definition satisfying (p : list vec3) (cells : list (list nat)) (test : vec3 -> bool) : list nat :=
  filter (fun i => test (midpoint p (nth i cells []))) (seq 0 (List.length cells)).
(* a boundary facet is a facet of one element only *)
Definition owners (t : list elem) (f : list nat) : nat :=
  List.length (filter (fun e => forallb (fun n => mem n e) f) t).
Definition boundary_satisfying (p : list vec3) (t : list elem) (facets : list (list nat)) (test : vec3 -> bool) : list nat :=
  filter (fun i => Nat.eqb (owners t (nth i facets [])) 1) (satisfying p facets test).

(* basis.get_dofs(nodes=...).all() of a vector element: three per node *)
Definition dofs_all (nodes : list nat) : list nat := flat_map (fun n => [3 * n; 3 * n + 1; 3 * n + 2]%nat) nodes.

(* LinearElasticity.from_facets, mesh/task_elastic.py:149-248, for facet arrays *)
Definition elastic_from_facets (area : nat -> R) (shape : nat -> list (nat * R)) (facets : list (list nat)) (m : mesh3)
    (dirichlet force : list nat) (dir : Tags_model.name) (value : R) (design : list nat)
    : res (domain * list (nat -> R)) :=
  let! base := from_facets facets (m_t m) (3 * List.length (m_p m)) dofs_all (Some (Arr dirichlet)) (Some (Arr force))
                 None None design in
  let! F := Tags_model.assemble_surface_forces area shape (Tags_model.FArr force) (Tags_model.One dir) (Tags_model.One value) in
  Ok (base, F).

(* mesh/toy_problem.py:52-95.  [facets]: the facets of the mesh as scikit-fem numbers them *)
Definition toy_mesh (mesh_size : R) : mesh3 := create_box_hex 8 6 4 mesh_size.
Definition toy_dirichlet : vec3 -> bool := points_in_range (0, 3 / 100) (0, 6) (0, 4).
Definition toy_force : vec3 -> bool :=
  points_in_range (8 - 12 / 10, 8 + 1 / 10) (6 * 2 / 5, 6 * 3 / 5) (4 - 12 / 10, 4).
Definition toy_design : vec3 -> bool := points_in_range (0, 8) (0, 6) (0, 4).
Definition toy_base (area : nat -> R) (shape : nat -> list (nat * R)) (facets : list (list nat)) (mesh_size : R)
    : res (domain * list (nat -> R)) :=
  let m := toy_mesh mesh_size in
  elastic_from_facets area shape facets m (satisfying (m_p m) facets toy_dirichlet)
    (satisfying (m_p m) facets toy_force) (Tags_model.lit "u^3") (-100) (satisfying (m_p m) (m_t m) toy_design).

(* mesh/toy_problem.py:106-144: with_boundaries keeps boundary facets only *)
Definition toy2_boundaries (facets : list (list nat)) : Tags_model.dict :=
  let m := create_box_hex 8 8 1 (3 / 10) in
  let sel := boundary_satisfying (m_p m) (m_t m) facets in
  [(Tags_model.lit "dirichlet", sel (points_in_range (0, 5 / 100) (0, 8) (0, 1)));
   (Tags_model.lit "neumann_0", sel (points_in_range (8, 8) (8 - 3 / 10, 8) (0, 1)));
   (Tags_model.lit "neumann_1", sel (points_in_range (8, 8) (0, 3 / 10) (0, 1)))].
Definition toy2 (area : nat -> R) (shape : nat -> list (nat * R)) (facets : list (list nat)) : res (domain * list (nat -> R)) :=
  let m := create_box_hex 8 8 1 (3 / 10) in
  Tags_model.elastic_from_mesh_tags area shape facets (m_t m) (3 * List.length (m_p m)) (fun _ => dofs_all)
    (Some (toy2_boundaries facets)) (Some [(Tags_model.lit "design", seq 0 (List.length (m_t m)))])
    (Tags_model.One (Tags_model.lit "all"))
    (Tags_model.Many [Tags_model.lit "u^2"; Tags_model.lit "u^2"]) (Tags_model.Many [-1; 1]).

(* ---- reading meshes ---- *)
Inductive mesh_class := MeshTet | MeshHex | MeshOther.
Definition has_type (k : Tags_model.name) (types : list Tags_model.name) : bool := existsb (Ckpt_model.name_eqb k) types.
(* mesh/toy_problem.py:147-155 *)
Definition load_mesh_auto (types : list Tags_model.name) : res mesh_class :=
  if has_type (Tags_model.lit "tetra") types then Ok MeshTet
  else if has_type (Tags_model.lit "hexahedron") types then Ok MeshHex else Err ValueError.
(* mesh/loader.py:9-33.  No mesh has an attribute "mesh_skfem", so oriented() is
   never called (:26-27). *)
Definition basis_from_file (types : list Tags_model.name) : res mesh_class :=
  if has_type (Tags_model.lit "hexahedron") types then Ok MeshHex
  else if has_type (Tags_model.lit "tetra") types then Ok MeshTet else Err ValueError.
(* mesh/utils.py:130-136 *)
Definition fix_elements_orientation (c : mesh_class) (p : list vec3) (t : list elem) : res (list elem) :=
  match c with
  | MeshTet => Ok (fix_tetrahedron_orientation p t)
  | MeshHex => Ok (fix_hexahedron_orientation p t)
  | MeshOther => Err ValueError
  end.

(* ---- mesh/toy_problem.py:160-250 ---- *)
(* A range as written in the code: a pair, or - because of a trailing comma - a
   tuple holding one pair. *)
Inductive range_expr := Pair (r : range) | Tuple1 (r : range).
(* x >= rng[0] and x <= rng[1] for an array x: the 1-tuple raises (ValueError when
   x cannot be broadcast with two values, else IndexError at rng[1]) *)
Definition range_of (r : range_expr) (len : nat) : res range :=
  match r with Pair r => Ok r | Tuple1 _ => Err (if orb (Nat.eqb len 1) (Nat.eqb len 2) then IndexError else ValueError) end.
Definition sub_norm (a b : vec3) : R :=
  sqrt ((vx a - vx b) * (vx a - vx b) + (vy a - vy b) * (vy a - vy b) + (vz a - vz b) * (vz a - vz b)).
Definition rmin_list (x : R) (l : list R) : R := fold_right Rmin x l.
(* :187-190: 0.8 * min distance from node 0; np.min of nothing raises ValueError *)
Definition msh_eps (p : list vec3) : res R :=
  match p with
  | a :: b :: r => Ok (rmin_list (sub_norm b a) (map (fun q => sub_norm q a) r) * (8 / 10))
  | _ => Err ValueError
  end.
(* :164-184: x_len, y_len, z_len; unset for other names *)
Definition msh_lens (name : Tags_model.name) : option (R * R * R) :=
  if Ckpt_model.name_eqb name (Tags_model.lit "down") then Some (4, 16 / 100, 2)
  else if Ckpt_model.name_eqb name (Tags_model.lit "down_box") then Some (4, 3, 2)
  else if Ckpt_model.name_eqb name (Tags_model.lit "pull") then Some (8, 3, 1 / 2)
  else if Ckpt_model.name_eqb name (Tags_model.lit "pull_2") then Some (4, 2, 1 / 2) else None.
(* :210-234 *)
Definition msh_force (name : Tags_model.name) (xl yl zl eps : R)
    : (range_expr * range_expr * range_expr) * (Tags_model.name * R) :=
  if Ckpt_model.name_eqb name (Tags_model.lit "down") then
    ((Pair (xl - eps, xl + 5 / 100), Pair (yl / 2 - eps, yl / 2 + eps), Pair (0, eps)), (Tags_model.lit "u^3", -800))
  else if Ckpt_model.name_eqb name (Tags_model.lit "down_box") then
    ((Pair (xl - eps, xl + 5 / 100), Pair (0, yl), Pair (0, eps)), (Tags_model.lit "u^3", -800))
  else if Ckpt_model.name_eqb name (Tags_model.lit "pull") then
    ((Tuple1 (xl - eps, xl + 5 / 100), Pair (yl * 2 / 5, yl * 3 / 5), Pair (zl * 2 / 5, zl * 3 / 5)), (Tags_model.lit "u^1", 1200))
  else
    ((Tuple1 (xl - eps, xl + 5 / 100), Tuple1 (yl / 2 - eps, yl / 2 + eps), Pair (zl * 2 / 5, zl * 3 / 5)), (Tags_model.lit "u^1", 200)).
(* [m], [facets]: the mesh read by load_mesh_auto.  The unset local is an
   UnboundLocalError; it is represented by NotModelled. *)
Definition toy_msh (area : nat -> R) (shape : nat -> list (nat * R)) (facets : list (list nat))
    (types : list Tags_model.name) (m : mesh3) (name : Tags_model.name) : res (domain * list (nat -> R)) :=
  let! c := load_mesh_auto types in
  let! eps := msh_eps (m_p m) in
  match msh_lens name with
  | None => Err NotModelled
  | Some (xl, yl, zl) =>
    let dirichlet := satisfying (m_p m) facets (points_in_range (0, 5 / 100) (0, yl) (0, zl)) in
    let '((xr, yr, zr), (dir, value)) := msh_force name xl yl zl eps in
    let n := List.length facets in
    let! x := range_of xr n in
    let! y := range_of yr n in
    let! z := range_of zr n in
    elastic_from_facets area shape facets m dirichlet (satisfying (m_p m) facets (points_in_range x y z)) dir value
      (satisfying (m_p m) (m_t m) (points_in_range (0, xl) (0, yl) (0, zl)))
  end.
