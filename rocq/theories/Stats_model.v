(* Reporting and bookkeeping on tasks: FEMDomain.nodes_and_elements_stats
   (mesh/task_common.py:424-505), the accessors of LinearElasticity
   (mesh/task_elastic.py:108-148, 261-263) and assemble_surface_neumann
   (mesh/task_heat.py:23-57). *)
From Verif Require Import Base Mesh_model OC_model.
From Verif Require Toy_model Tags_model.
Open Scope R_scope.
Open Scope list_scope.

(* ---- nearest neighbours ---- *)
(* one row of cKDTree(points).query(points, k=2): all distances, ascending; column 1
   is the second smallest, inf (None) when there is only one point *)
Definition distances (p : list vec3) (i : nat) : list R :=
  map (fun j => Toy_model.sub_norm (nth i p v0) (nth j p v0)) (seq 0 (List.length p)).
Definition second_distance (p : list vec3) (i : nat) : option R := nth_error (sort_r (distances p i)) 1.
(* :427-428, 434-435 *)
Definition nearest_dists (p : list vec3) : list (option R) := map (second_distance p) (seq 0 (List.length p)).
(* :430-432 *)
Definition element_centers (m : mesh3) : list vec3 := map (Toy_model.midpoint (m_p m)) (m_t m).

(* ---- the five printed figures, :437-449 ---- *)
Definition np_min (a : list R) : R := match a with [] => 0 | x :: t => fold_left Rmin t x end.
(* np.median: the middle of the sorted values, or the mean of the two middle ones *)
Definition np_median (a : list R) : R :=
  let s := sort_r a in let n := List.length a in
  if Nat.odd n then nth (n / 2) s 0 else (nth (n / 2 - 1) s 0 + nth (n / 2) s 0) / 2.
(* np.std: population standard deviation *)
Definition np_std (a : list R) : R :=
  let mu := Toy_model.mean a in sqrt (Toy_model.mean (map (fun x => (x - mu) * (x - mu)) a)).
Record summary := mkSum { s_min : R; s_max : R; s_mean : R; s_median : R; s_std : R }.
Definition summarise (a : list R) : summary := mkSum (np_min a) (np_max a) (Toy_model.mean a) (np_median a) (np_std a).
(* axs.hist over values of which some is inf: np.histogram raises ValueError, :454, 460 *)
Fixpoint all_finite (l : list (option R)) : res (list R) :=
  match l with
  | [] => Ok []
  | Some x :: r => let! t := all_finite r in Ok (x :: t)
  | None :: _ => Err ValueError
  end.

(* ---- the bar chart, :483-491 ---- *)
(* elements_volume[idx]: for None numpy adds an axis, so the sum is over everything;
   an index out of range raises IndexError *)
Definition volume_at (vol : list R) (idx : option (list nat)) : res R :=
  match idx with
  | None => Ok (rsum vol)
  | Some l => if forallb (fun i => Nat.ltb i (List.length vol)) l then Ok (rsum (map (fun i => nth i vol 0) l)) else Err IndexError
  end.
Record stats := mkStats { st_nodes : summary; st_elements : summary;
  st_all : R; st_dirichlet : R; st_force : R; st_design : R }.
(* :424-505.  The order of the failures is that of the code: the histograms of the
   nodes, of the elements, then the design volumes, then the bars.  The point tree of
   an empty mesh is not modelled. *)
Definition nodes_and_elements_stats (m : mesh3) (vol : list R) (d : domain) : res stats :=
  let! nd := all_finite (nearest_dists (m_p m)) in
  let! el := all_finite (nearest_dists (element_centers m)) in
  let! des := volume_at vol (Some (d_design d)) in
  let! dir := volume_at vol (d_dirichlet d) in
  let! frc := volume_at vol (d_neumann d) in
  Ok (mkStats (summarise nd) (summarise el) (rsum vol) dir frc des).

(* ---- accessors of LinearElasticity ---- *)
Record lfields := mkLF { lf_neumann_elements : list nat; lf_neumann_nodes : list nat; lf_dir_neu : list nat }.
(* :126-132 *)
Definition get_force_elements (k : lfields) : list nat := lf_neumann_elements k.
Definition set_force_elements (k : lfields) (v : list nat) : lfields := mkLF v (lf_neumann_nodes k) (lf_dir_neu k).
(* :134-140: the getter returns the elements, the setter writes the nodes *)
Definition get_force_nodes (k : lfields) : list nat := lf_neumann_elements k.
Definition set_force_nodes (k : lfields) (v : list nat) : lfields := mkLF (lf_neumann_elements k) v (lf_dir_neu k).
(* :142-148 *)
Definition get_dirichlet_force_elements (k : lfields) : list nat := lf_dir_neu k.
Definition set_dirichlet_force_elements (k : lfields) (v : list nat) : lfields := mkLF (lf_neumann_elements k) (lf_neumann_nodes k) v.
(* :261-263: neumann_elements_all is defined nowhere *)
Definition get_force_elements_all (k : lfields) : res (list nat) := Err AttributeError.

(* ---- surface fluxes, mesh/task_heat.py:23-57 ---- *)
Section Flux.
(* integral over facet f of the shape function of each of its nodes (FacetBasis) *)
Variable shape : nat -> list (nat * R).
Definition flux_vector (facets : list nat) (q : R) : nat -> R := fun n => q * Tags_model.nodal_integral shape facets n.
Inductive facets_arg := FOne (ids : list nat) | FMany (l : list (list nat)).
Inductive value_arg := VOne (q : R) | VMany (l : list R).
(* the result: a bare vector for one region, a list otherwise *)
Inductive flux_out := Bare (h : nat -> R) | Vectors (l : list (nat -> R)).
Definition assemble_surface_neumann (fa : facets_arg) (va : value_arg) : res flux_out :=
  let fs := match fa with FOne ids => [ids] | FMany l => l end in
  let vs := match va with VOne q => [q] | VMany l => l end in
  if Nat.eqb (List.length fs) (List.length vs) then
    match zipwith flux_vector fs vs with
    | [h] => Ok (Bare h)
    | l => Ok (Vectors l)
    end
  else Err ValueError.
End Flux.
