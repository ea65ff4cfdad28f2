(* Model of FEMDomain.export_analysis_condition_on_mesh: the colours written to
   condition.vtu when a run starts (core/optimizers/common_density.py:969). *)
From Verif Require Import Base Mesh_model.
Open Scope list_scope.

(* a[idx] = v for an integer index array, and for idx = None, where NumPy adds an
   axis and the assignment reaches every entry *)
Fixpoint set1 (a : list nat) (i v : nat) : list nat :=
  match a, i with
  | [], _ => []
  | _ :: r, O => v :: r
  | x :: r, S i' => x :: set1 r i' v
  end.
Definition assign (a : list nat) (idx : option (list nat)) (v : nat) : res (list nat) :=
  match idx with
  | None => Ok (map (fun _ => v) a)
  | Some l => if forallb (fun i => Nat.ltb i (List.length a)) l
              then Ok (fold_left (fun a i => set1 a i v) l a) else Err IndexError
  end.
(* a node argument used as an index: a list of arrays is converted to one array *)
Definition as_index (a : option nodes_arg) : res (option (list nat)) :=
  match a with
  | None => Ok None
  | Some (Arr l) => Ok (Some l)
  | Some (Lst ll) => let! l := np_flatten ll in Ok (Some l)
  end.
(* mesh/task_common.py:353-358; np.concatenate of no arrays raises *)
Definition neumann_nodes_all (a : option nodes_arg) : res (option (list nat)) :=
  match a with
  | None => Ok None
  | Some (Arr l) => Ok (Some l)
  | Some (Lst []) => Err ValueError
  | Some (Lst ll) => Ok (Some (np_unique (List.concat ll)))
  end.
(* mesh/task_common.py:373-378 *)
Definition node_colors (nnodes : nat) (neumann dirichlet robin : option nodes_arg) : res (list nat) :=
  let! ni := neumann_nodes_all neumann in
  let! a := assign (repeat 0%nat nnodes) ni 1%nat in
  let! di := as_index dirichlet in
  let! b := assign a di 2%nat in
  let! ri := as_index robin in
  assign b ri 3%nat.
(* mesh/task_common.py:381-385 *)
Definition element_colors (d : domain) : res (list nat) :=
  let! a := assign (repeat 0%nat (d_nel d)) (Some (d_free_elements d)) 1%nat in
  let! b := assign a (Some (d_fixed d)) 2%nat in
  assign b (Some (d_design d)) 3%nat.
