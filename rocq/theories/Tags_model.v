(* Model of the tagged-mesh constructors (mesh/task_elastic.py:266-317,
   mesh/task_heat.py:250-321) and of the surface load vectors
   (mesh/task_elastic.py:14-77). *)
From Coq Require Import Ascii.
From Verif Require Import Base.
From Verif Require Ckpt_model Mesh_model Heat_model.
Open Scope list_scope.

Notation name := Ckpt_model.name.
Notation lit := Ckpt_model.lit.
Notation nodes_arg := Mesh_model.nodes_arg.

(* mesh.boundaries / mesh.subdomains: a dict in insertion order, or None *)
Definition dict := list (name * list nat).
Fixpoint dget (k : name) (d : dict) : option (list nat) :=
  match d with
  | [] => None
  | (k', v) :: r => if Ckpt_model.name_eqb k k' then Some v else dget k r
  end.
(* mesh.boundaries[k] for a key k of the dict *)
Definition ids_of (d : dict) (k : name) : list nat := match dget k d with Some v => v | None => [] end.

(* re.match(r"<pre>\d+$", k).  Simplification: ASCII digits, no newline in keys *)
Definition numbered (pre k : name) : bool :=
  (Ckpt_model.prefixb pre k &&
   match skipn (List.length pre) k with [] => false | r => forallb Ckpt_model.is_digit r end)%bool.
(* int(re.search(r"\d+$", k).group()) for such a key; all prefixes used end in "_" *)
Definition tag_no (pre k : name) : Z := Ckpt_model.py_int (skipn (List.length pre) k).
(* sorted(..., key=...): stable *)
Fixpoint insert_tag (pre k : name) (l : list name) : list name :=
  match l with
  | [] => [k]
  | y :: r => if (tag_no pre k <=? tag_no pre y)%Z then k :: l else y :: insert_tag pre k r
  end.
Definition sort_tags (pre : name) (l : list name) : list name := fold_right (insert_tag pre) [] l.
Definition select (pre : name) (d : dict) : list name := sort_tags pre (filter (numbered pre) (map fst d)).

(* the facet argument handed on: an id array, a list of id arrays, the empty
   float array np.array([]), or None *)
Inductive facet_arg := FArr (ids : list nat) | FList (l : list (list nat)) | FFloat | FNone.

(* task_elastic.py:284-297: the pattern is "dirichlete_\d+$" *)
Definition elastic_dirichlet (d : dict) : facet_arg :=
  match select (lit "dirichlete_") d with
  | [] => match dget (lit "dirichlet") d with Some v => FArr v | None => FFloat end
  | ks => FList (map (ids_of d) ks)
  end.
(* task_elastic.py:299-311: the plain tag is wrapped in a list *)
Definition elastic_neumann (d : dict) : facet_arg :=
  match select (lit "neumann_") d with
  | [] => match dget (lit "neumann") d with Some v => FList [v] | None => FFloat end
  | ks => FList (map (ids_of d) ks)
  end.
(* task_heat.py:268-294 *)
Definition heat_boundary (pre plain : name) (d : dict) : facet_arg :=
  match select pre d with
  | [] => match dget plain d with Some v => FArr v | None => FNone end
  | ks => FList (map (ids_of d) ks)
  end.
Definition heat_dirichlet (d : dict) : facet_arg := heat_boundary (lit "dirichlet_") (lit "dirichlet") d.
Definition heat_robin (d : dict) : facet_arg := heat_boundary (lit "robin_") (lit "robin") d.

(* basis.mesh.subdomains["design"] and basis.mesh.boundaries.keys() *)
Definition mesh_tags (boundaries subdomains : option dict) : res (dict * list nat) :=
  match subdomains with
  | None => Err TypeError
  | Some sd => match dget (lit "design") sd with
               | None => Err KeyError
               | Some design => match boundaries with
                                | None => Err AttributeError
                                | Some d => Ok (d, design)
                                end
               end
  end.

(* facets[:, np.array([])] - a float index array - raises IndexError *)
Definition index_arg (a : facet_arg) : res (option nodes_arg) :=
  match a with
  | FArr l => Ok (Some (Mesh_model.Arr l))
  | FList ll => Ok (Some (Mesh_model.Lst ll))
  | FFloat => Err IndexError
  | FNone => Ok None
  end.

(* one value or a list: dirichlet_dir, neumann_dir_type, neumann_values *)
Inductive one_or_list (A : Type) := One (a : A) | Many (l : list A).
Arguments One {A} a.
Arguments Many {A} l.
(* _to_list, task_elastic.py:21-22 *)
Definition to_list {A} (x : one_or_list A) : list A := match x with One a => [a] | Many l => l end.

(* task_common.py:124-138 for an elastic task (dirichlet_values is None) *)
Definition check_dirs (nodes : option nodes_arg) (dir : one_or_list name) : res unit :=
  match nodes, dir with
  | None, _ => Ok tt
  | Some (Mesh_model.Lst ll), Many l =>
      if Nat.eqb (List.length ll) (List.length l) then Ok tt else Err AssertionError
  | Some (Mesh_model.Lst _), One _ => Err AssertionError
  | Some (Mesh_model.Arr _), One _ => Ok tt
  | Some (Mesh_model.Arr _), Many _ => Err AssertionError
  end.

(* _dir_to_comp, task_elastic.py:24-32 *)
Definition dir_to_comp (s : name) : res nat :=
  if (Ckpt_model.prefixb (lit "u^") s &&
      match skipn 2 s with [] => false | r => forallb Ckpt_model.is_digit r end)%bool
  then let c := (Ckpt_model.py_int (skipn 2 s) - 1)%Z in
       if (c <? 0)%Z then Err ValueError else Ok (Z.to_nat c)
  else Err ValueError.

Section Loads.
(* integration over facet f (scikit-fem FacetBasis): its area, and for each of
   its nodes the integral of the shape function of that node *)
Variable area : nat -> R.
Variable shape : nat -> list (nat * R).
Open Scope R_scope.

(* A = asm(l_one, fb), :57 *)
Definition total_area (facets : list nat) : R := rsum (map area facets).
(* integral over the facets of the shape function of node n *)
Definition nodal_integral (facets : list nat) (n : nat) : R :=
  rsum (map (fun f => rsum (map (fun nw => if Nat.eqb (fst nw) n then snd nw else 0) (shape f))) facets).
(* asm(l_comp, fb) with pressure = val / A, :57-66; degrees of freedom are
   numbered u1_x, u1_y, u1_z, u2_x, ...  The components of a vector element are
   0, 1, 2: v[comp] raises IndexError beyond. *)
Definition load_vector (facets : list nat) (comp : nat) (val : R) : res (nat -> R) :=
  if Nat.ltb comp 3 then
    let pressure := val / total_area facets in
    Ok (fun dof => if Nat.eqb (dof mod 3) comp then pressure * nodal_integral facets (dof / 3) else 0)
  else Err IndexError.
(* assemble_surface_forces, :14-77.  One vector is returned bare and wrapped in a
   list again by from_facets (:228-231), so the task always holds the list. *)
Fixpoint assemble (fs : list (list nat)) (ds : list name) (vs : list R) : res (list (nat -> R)) :=
  match fs, ds, vs with
  | f :: fs', s :: ds', v :: vs' =>
      let! c := dir_to_comp s in
      let! F := load_vector f c v in
      let! r := assemble fs' ds' vs' in Ok (F :: r)
  | _, _, _ => Ok []
  end.
Definition assemble_surface_forces (facets : facet_arg) (dir : one_or_list name) (val : one_or_list R)
    : res (list (nat -> R)) :=
  let fs := match facets with FList l => l | FArr ids => [ids] | FFloat => [[]] | FNone => [] end in
  let ds := to_list dir in
  let vs := to_list val in
  if (Nat.eqb (List.length fs) (List.length ds) && Nat.eqb (List.length ds) (List.length vs))%bool
  then assemble fs ds vs else Err ValueError.

(* LinearElasticity.from_mesh_tags, task_elastic.py:266-317, through from_facets
   :149-248.  [dofs] stands for basis.get_dofs with the direction dirichlet_dir. *)
Definition elastic_from_mesh_tags (facets : list (list nat)) (t : list Mesh_model.elem) (ndofs : nat)
    (dofs : one_or_list name -> list nat -> list nat)
    (boundaries subdomains : option dict) (dirichlet_dir : one_or_list name)
    (neumann_dir : one_or_list name) (neumann_values : one_or_list R)
    : res (Mesh_model.domain * list (nat -> R)) :=
  let! (d, design) := mesh_tags boundaries subdomains in
  let! da := index_arg (elastic_dirichlet d) in
  let! dn := Mesh_model.facets_dir facets da in
  let! na := index_arg (elastic_neumann d) in
  let! nn := Mesh_model.facets_load facets na in
  let! _ := check_dirs dn dirichlet_dir in
  let! base := Mesh_model.from_nodes t ndofs (dofs dirichlet_dir) dn nn None None design in
  let! F := assemble_surface_forces (elastic_neumann d) neumann_dir neumann_values in
  Ok (base, F).
End Loads.

(* LinearHeatConduction.from_mesh_tags, task_heat.py:250-321, up to the checks of
   the temperature arguments and the element sets (the Robin matrices are in
   Heat_model).  Without a Robin tag the Robin arguments are dropped (C72). *)
Definition heat_from_mesh_tags (facets : list (list nat)) (t : list Mesh_model.elem) (ndofs : nat)
    (dofs : list nat -> list nat) (boundaries subdomains : option dict) (values : Heat_model.farg)
    (design_robin : option bool) : res Mesh_model.domain :=
  let! (d, design) := mesh_tags boundaries subdomains in
  let! da := index_arg (heat_dirichlet d) in
  let! dn := Mesh_model.facets_dir facets da in
  let! ra := index_arg (heat_robin d) in
  let! rn := Mesh_model.facets_load facets ra in
  let! _ := match dn with
    | None => Ok tt
    | Some (Mesh_model.Arr _) => Err AssertionError        (* dirichlet_dir is None *)
    | Some (Mesh_model.Lst ns) =>
      match values with
      | Heat_model.Int _ => Err AssertionError
      | Heat_model.Flt _ => Ok tt
      | Heat_model.FLst l => if Nat.eqb (List.length ns) (List.length l) then Ok tt else Err AssertionError
      end
    end in
  let dr := match ra with None => None | _ => design_robin end in
  Mesh_model.from_nodes t ndofs dofs dn None rn dr design.
