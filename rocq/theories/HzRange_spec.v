(* What the theorems about the range of the nodal Helmholtz filter mean. *)
From Verif Require Import Base Filter_model Helmholtz_model.
Open Scope R_scope.
Open Scope list_scope.

(* nodal shape functions: nowhere negative products, each with itself positive *)
Definition shape_functions (m : mesh) : Prop :=
  (forall i j, 0 <= m_M m i j) /\ (forall i, (i < m_nn m)%nat -> 0 < m_M m i i).
(* the radius is large enough for the elements: no coupling between two different nodes
   is positive *)
Definition coarse (m : mesh) (r : R) : Prop :=
  forall i j, (i < m_nn m)%nat -> (j < m_nn m)%nat -> i <> j -> m_M m i j + r * r * m_K m i j <= 0.
(* element e belongs to the mesh and is not to be designed *)
Definition fixed_element (m : mesh) (mask : option (list bool)) (e : nat) : Prop :=
  (e < n_els m)%nat /\ is_design mask e = false.

(* A row of three unit square (bilinear) elements: node 2 k + l has abscissa k and
   ordinate l.  The matrices of the row are products of those of a rod of three linear
   elements and of one linear element. *)
Definition rod_M (k l : nat) : R :=
  nth l (nth k [[1/3; 1/6; 0; 0]; [1/6; 2/3; 1/6; 0]; [0; 1/6; 2/3; 1/6]; [0; 0; 1/6; 1/3]] []) 0.
Definition rod_K (k l : nat) : R :=
  nth l (nth k [[1; -1; 0; 0]; [-1; 2; -1; 0]; [0; -1; 2; -1]; [0; 0; -1; 1]] []) 0.
Definition one_M (k l : nat) : R := nth l (nth k [[1/3; 1/6]; [1/6; 1/3]] []) 0.
Definition one_K (k l : nat) : R := nth l (nth k [[1; -1]; [-1; 1]] []) 0.
Definition row_mesh : mesh := mkMesh 8 [[0; 2; 3; 1]; [2; 4; 5; 3]; [4; 6; 7; 5]]%nat (fun _ => 1)
  (fun i j => rod_M (i / 2) (j / 2) * one_M (i mod 2) (j mod 2))
  (fun i j => rod_K (i / 2) (j / 2) * one_M (i mod 2) (j mod 2) + rod_M (i / 2) (j / 2) * one_K (i mod 2) (j mod 2)).
(* the first element is fixed, the other two are designed *)
Definition row_mask : option (list bool) := Some [false; true; true].
