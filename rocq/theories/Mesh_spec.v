(* What C49-C54 mean, independently of how the code computes it. *)
From Verif Require Import Base Mesh_model.
From Coq Require Import Sorting.Sorted.
Open Scope R_scope.
Open Scope list_scope.

(* element e of the mesh has at least one node among [nodes] *)
Definition touches (t : list elem) (nodes : list nat) (e : nat) : Prop :=
  (e < List.length t)%nat /\ exists n, In n nodes /\ In n (nth e t []).
(* strictly increasing: sorted and without duplicates *)
Definition sorted_set (l : list nat) : Prop := StronglySorted lt l.
(* all nodes named by a boundary argument (an array or a list of arrays) *)
Definition arg_nodes (a : nodes_arg) : list nat :=
  match a with Arr l => l | Lst ll => List.concat ll end.
Definition opt_nodes (a : option nodes_arg) : list nat :=
  match a with None => [] | Some x => arg_nodes x end.

(* determinant of the matrix with columns a, b, c *)
Definition det3 (a b c : vec3) : R :=
  let '(a1, a2, a3) := a in let '(b1, b2, b3) := b in let '(c1, c2, c3) := c in
  a1 * (b2 * c3 - b3 * c2) - b1 * (a2 * c3 - a3 * c2) + c1 * (a2 * b3 - a3 * b2).
Definition vadd (a b : vec3) : vec3 :=
  let '(a1, a2, a3) := a in let '(b1, b2, b3) := b in (a1 + b1, a2 + b2, a3 + b3).
Definition vneg (a : vec3) : vec3 := let '(a1, a2, a3) := a in (- a1, - a2, - a3).
(* geometric volume of the tetrahedron with corners a b c d *)
Definition tetra_volume (a b c d : vec3) : R :=
  Rabs (det3 (vadd b (vneg a)) (vadd c (vneg a)) (vadd d (vneg a))) / 6.
(* geometric volume of the parallelepiped spanned by u, v, w *)
Definition box_volume (u v w : vec3) : R := Rabs (det3 u v w).
(* corners of the parallelepiped at o spanned by u, v, w, numbered as in the
   drawing in fea/composer.py:217-223 (0-1 along u, 0-3 along v, 0-4 along w) *)
Definition box_corners (o u v w : vec3) : list vec3 :=
  [o; vadd o u; vadd (vadd o u) v; vadd o v;
   vadd o w; vadd (vadd o u) w; vadd (vadd (vadd o u) v) w; vadd (vadd o v) w].
(* the same corners in the numbering documented by scikit-fem for MeshHex
   (1, 2, 3 are the neighbours of 0; 4 = 1+2, 5 = 1+3, 6 = 2+3, 7 opposite) *)
Definition skfem_corners (o u v w : vec3) : list vec3 :=
  [o; vadd o u; vadd o v; vadd o w;
   vadd (vadd o u) v; vadd (vadd o u) w; vadd (vadd o v) w; vadd (vadd (vadd o u) v) w].
