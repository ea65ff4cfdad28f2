(* Model of filters/helmholtz_filter_element.py: the element based Helmholtz
   filter.  The three solver options all solve the same linear system; the
   tolerance of the iterative ones is not modelled (a result is a solution). *)
From Verif Require Import Base Mesh_model Filter_model Adj_model.
Open Scope R_scope.
Open Scope list_scope.

Inductive ekind := Tet | Hex.
Record emesh := mkE { e_kind : ekind; e_t : list elem; e_p : list vec3 }.
Definition nel (m : emesh) : nat := List.length (e_t m).

(* :170-176, 118-135: |a . (b x c)| / 6 *)
Definition tet_vol6 (q0 q1 q2 q3 : vec3) : R :=
  Rabs (vdot (vsub q1 q0) (vcross (vsub q2 q0) (vsub q3 q0))) / 6.
Definition corner (m : emesh) (i k : nat) : vec3 := pt (e_p m) (nd (nth i (e_t m) []) k).
Definition volume (m : emesh) (i : nat) : R :=
  let q := corner m i in
  match e_kind m with
  | Tet => tet_vol6 (q 0%nat) (q 1%nat) (q 2%nat) (q 3%nat)
  | Hex => tet_vol6 (q 0%nat) (q 1%nat) (q 3%nat) (q 4%nat) + tet_vol6 (q 1%nat) (q 2%nat) (q 3%nat) (q 6%nat) +
           tet_vol6 (q 1%nat) (q 5%nat) (q 6%nat) (q 4%nat) + tet_vol6 (q 3%nat) (q 6%nat) (q 7%nat) (q 4%nat) +
           tet_vol6 (q 1%nat) (q 3%nat) (q 6%nat) (q 4%nat) + tet_vol6 (q 1%nat) (q 6%nat) (q 5%nat) (q 4%nat)
  end.
(* :139-166, 178-189 *)
Definition adjacent (m : emesh) (i : nat) : list nat :=
  face_adjacency (match e_kind m with Tet => tet_faces | Hex => hex_faces end) (e_t m) i.
(* :206: the mean of the node coordinates *)
Definition to_point (v : vec3) : point := [vx v; vy v; vz v].
Definition ecenter (m : emesh) (i : nat) : point := nth i (get_element_centers 3 (map to_point (e_p m)) (e_t m)) [].

(* :212-227: the entry for the neighbour j of i, 0 where the loop continues *)
Definition weight (m : emesh) (r : R) (i j : nat) : R :=
  let d := dist (ecenter m i) (ecenter m j) in
  if Rltb d (/ 1000000000000) then 0 else r ^ 2 * exp (- d ^ 2 / (2 * r ^ 2)).
(* :228-234: coo_matrix adds duplicates *)
Definition laplacian (m : emesh) (r : R) (i j : nat) : R :=
  rsum (map (fun k => if Nat.eqb k j then - weight m r i k else 0) (adjacent m i)) +
  (if Nat.eqb i j then rsum (map (weight m r i) (adjacent m i)) else 0).
(* :271-276 *)
Definition mean_volume (m : emesh) : R := rsum (map (volume m) (seq 0 (nel m))) / INR (nel m).
Definition vnorm (m : emesh) (i : nat) : R := volume m i / mean_volume m.
Definition Amat (m : emesh) (r : R) (i j : nat) : R :=
  (if Nat.eqb i j then vnorm m i else 0) + r ^ 2 * laplacian m r i j.
Definition apply (m : emesh) (r : R) (x : nat -> R) (i : nat) : R :=
  rsum (map (fun j => Amat m r i j * x j) (seq 0 (nel m))).

(* forward, :498-514: x solves A x = V rho *)
Definition eh_forward (m : emesh) (r : R) (rho x : nat -> R) : Prop :=
  forall i, (i < nel m)%nat -> apply m r x i = vnorm m i * rho i.
(* gradient, :516-534: the same solve applied to v *)
Definition eh_gradient (m : emesh) (r : R) (v g : nat -> R) : Prop :=
  forall i, (i < nel m)%nat -> apply m r g i = vnorm m i * v i.
