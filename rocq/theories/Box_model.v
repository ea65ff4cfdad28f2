(* Model of mesh/toy_problem.py:10-49: the box meshes. *)
From Verif Require Import Base Mesh_model.
Open Scope R_scope.
Open Scope list_scope.

(* int(np.ceil(x)) *)
Definition Rceil (x : R) : Z := (- Rfloor (- x))%Z.
(* :27-29.  Only for positive lengths and mesh sizes (otherwise numpy raises or
   there are no elements). *)
Definition cells (len size : R) : nat := Z.to_nat (Rceil (len / size)).
(* :31-33: entry k of np.linspace(0, len, n + 1) *)
Definition linspace (len : R) (n k : nat) : R := INR k * (len / INR n).

Record dims := mkDims { d_x : nat; d_y : nat; d_z : nat }.
(* scikit-fem's MeshHex.init_tensor (external, :35): nodes and cells are numbered
   with y fastest, then x, then z *)
Definition node_number (d : dims) (i j k : nat) : nat := (j + (d_y d + 1) * (i + (d_x d + 1) * k))%nat.
Definition hex_of (d : dims) (i j k : nat) : elem :=
  let n := node_number d in
  [n i j k; n i (j + 1) k; n (i + 1) j k; n i j (k + 1);
   n (i + 1) (j + 1) k; n i (j + 1) (k + 1); n (i + 1) j (k + 1); n (i + 1) (j + 1) (k + 1)]%nat.
Definition grid (ny nx nz : nat) {A} (f : nat -> nat -> nat -> A) : list A :=
  flat_map (fun k => flat_map (fun i => map (fun j => f i j k) (seq 0 ny)) (seq 0 nx)) (seq 0 nz).
Definition box_nodes (xl yl zl : R) (d : dims) : list vec3 :=
  grid (d_y d + 1) (d_x d + 1) (d_z d + 1)
    (fun i j k => (linspace xl (d_x d) i, linspace yl (d_y d) j, linspace zl (d_z d) k)).
Definition box_cells (d : dims) : list elem := grid (d_y d) (d_x d) (d_z d) (hex_of d).
(* :10-38 *)
Definition create_box_hex (xl yl zl size : R) : mesh3 :=
  let d := mkDims (cells xl size) (cells yl size) (cells zl size) in
  let p := box_nodes xl yl zl d in
  mkMesh (fix_hexahedron_orientation p (box_cells d)) p.

(* :41-43: the number of refinements of the unit cube; MeshTet.refined does
   nothing for a negative number.  Each refinement halves the spacing of the node
   lattice (external). *)
Definition tet_refinements (xl yl zl size : R) : nat :=
  Z.to_nat (Rceil (ln (Rmax (Rmax xl yl) zl / size) / ln 2)).
Definition tet_spacing (xl yl zl size len : R) : R := len / 2 ^ tet_refinements xl yl zl size.
