(* Model of filters/helmholtz_filter_nodal.py.  Vectors are functions of the
   node or element index.  The finite element library is represented by the
   mass matrix M and the stiffness matrix K it assembles on the mesh: the
   bilinear form of line 137 is M + r^2 K and the right-hand side (lines 139-143,
   rho_field being the interpolant of nodal values) is M rho_node. *)
From Verif Require Import Base Filter_model.
Open Scope R_scope.
Open Scope list_scope.

Record mesh := mkMesh {
  m_nn : nat;                       (* number of nodes *)
  m_els : list (list nat);          (* mesh.t.T *)
  m_vol : nat -> R;                 (* elements_volume *)
  m_M : nat -> nat -> R;
  m_K : nat -> nat -> R }.

Definition n_els (m : mesh) : nat := List.length (m_els m).
Definition touches (m : mesh) (e i : nat) : bool := existsb (Nat.eqb i) (nth e (m_els m) []).

(* helmholtz_filter_nodal.py:26-27 *)
Definition node_to_element (m : mesh) (x : nat -> R) (e : nat) : R :=
  let nodes := nth e (m_els m) [] in
  rsum (map x nodes) / INR (List.length nodes).

(* helmholtz_filter_nodal.py:30-56, weighted; the nodes of an element are
   distinct, so += with an index array adds once per element *)
Definition element_to_node (m : mesh) (mask : option (list bool)) (fixed : R) (rho : nat -> R) (i : nat) : R :=
  let els := filter (fun e => touches m e i) (seq 0 (n_els m)) in
  let num := rsum (map (fun e => m_vol m e * (if is_design mask e then rho e else fixed)) els) in
  let den := rsum (map (m_vol m) els) in
  num / (if Reqb den 0 then 1 else den).

Definition mv (m : mesh) (A : nat -> nat -> R) (x : nat -> R) (i : nat) : R :=
  rsum (map (fun j => A i j * x j) (seq 0 (m_nn m))).
Definition A_of (m : mesh) (r : R) (i j : nat) : R := m_M m i j + r * r * m_K m i j.
(* helmholtz_filter_nodal.py:129-132: nodes of non-design elements *)
Definition fixed_node (m : mesh) (mask : option (list bool)) (i : nat) : bool :=
  existsb (fun e => (negb (is_design mask e) && touches m e i)%bool) (seq 0 (n_els m)).

(* what skfem.solve(condense(A, b, D, x)) returns: prescribed values on D, the
   equations on all other rows (helmholtz_filter_nodal.py:146-155) *)
Definition solves (m : mesh) (r : R) (D : nat -> bool) (bc : R) (b x : nat -> R) : Prop :=
  forall i, (i < m_nn m)%nat ->
    if D i then x i = bc else mv m (A_of m r) x i = b i.

(* helmholtz_filter_nodal.py:180-198, for any result of the linear solver *)
Definition hz_forward (m : mesh) (mask : option (list bool)) (r : R) (rho out : nat -> R) : Prop :=
  exists x, solves m r (fixed_node m mask) 1 (mv m (m_M m) (element_to_node m mask 1 rho)) x /\
    forall e, (e < n_els m)%nat -> out e = node_to_element m x e.
(* helmholtz_filter_nodal.py:200-233: no Dirichlet nodes (design_mask=None in
   line 220) and the final clamp of line 232 *)
Definition hz_gradient (m : mesh) (mask : option (list bool)) (r : R) (v out : nat -> R) : Prop :=
  exists x, solves m r (fun _ => false) 0 (mv m (m_M m) (element_to_node m mask 0 v)) x /\
    forall e, (e < n_els m)%nat -> out e = Rmin (node_to_element m x e) 0.
