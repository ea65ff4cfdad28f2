(* Model of core/visualization.py: what is handed to meshio for the VTU files, and
   which image files the animation consists of. *)
From Coq Require Import Ascii String.
From Verif Require Import Base Mesh_model EHelm_model Ckpt_model.
Open Scope list_scope.

(* ---------- export_mesh_with_info, visualization.py:22-80 ---------- *)
Inductive mkind := MTet | MHex | MOther.
Record vtu := mkVtu { v_points : list vec3; v_type : string; v_cells : list elem;
                      v_point_data : list (string * list R); v_cell_data : list (string * list R) }.
(* dict assignment: a repeated name keeps its place and takes the new value *)
Fixpoint dput (k : string) (v : list R) (d : list (string * list R)) : list (string * list R) :=
  match d with
  | [] => [(k, v)]
  | (k', v') :: r => if String.eqb k k' then (k', v) :: r else (k', v') :: dput k v r
  end.
(* :62-71: "if values and names: for name, val in zip(names, values)" *)
Definition collect_data (names : option (list string)) (values : option (list (list R))) : list (string * list R) :=
  match names, values with
  | Some ns, Some vs => fold_left (fun d nv => dput (fst nv) (snd nv) d) (combine ns vs) []
  | _, _ => []
  end.
(* meshio.Mesh checks the lengths (external) *)
Definition lengths_ok (n : nat) (d : list (string * list R)) : bool :=
  forallb (fun kv => Nat.eqb (List.length (snd kv)) n) d.
Definition export_mesh_with_info (k : mkind) (m : mesh3)
  (pnames : option (list string)) (pvalues : option (list (list R)))
  (cnames : option (list string)) (cvalues : option (list (list R))) : res vtu :=
  let! ty := match k with MTet => Ok "tetra"%string | MHex => Ok "hexahedron"%string | MOther => Err ValueError end in
  let pd := collect_data pnames pvalues in
  let cd := collect_data cnames cvalues in
  if negb (lengths_ok (List.length (m_p m)) pd) then Err ValueError
  else if negb (lengths_ok (List.length (m_t m)) cd) then Err ValueError
  else Ok (mkVtu (m_p m) ty (m_t m) pd cd).

(* ---------- images2gif, visualization.py:184-217 ---------- *)
(* common_density.py:341-345 (the file name; f"{n:08d}" for n >= 0) *)
Definition image_prefix (prefix : name) : name := lit "info_" ++ prefix ++ lit "-".
Definition image_name (prefix : name) (i : Z) : name := image_prefix prefix ++ zfill 8 (py_str i) ++ lit ".jpg".
Definition suffixb (s f : name) : bool := prefixb (rev s) (rev f).
(* glob: "info_{prefix}-*.jpg" for a prefix without wildcards *)
Definition globbed (prefix : name) (f : name) : bool :=
  (prefixb (image_prefix prefix) f && suffixb (lit ".jpg") f &&
   Nat.leb (List.length (image_prefix prefix) + 4) (List.length f))%bool.
(* comparison of strings by code points *)
Fixpoint name_leb (a b : name) : bool :=
  match a, b with
  | [], _ => true
  | _ :: _, [] => false
  | x :: a', y :: b' => if Nat.ltb (nat_of_ascii x) (nat_of_ascii y) then true
                        else if Nat.eqb (nat_of_ascii x) (nat_of_ascii y) then name_leb a' b' else false
  end.
Fixpoint insert_name (x : name) (l : list name) : list name :=
  match l with [] => [x] | y :: r => if name_leb x y then x :: l else y :: insert_name x r end.
Definition sort_names (l : list name) : list name := fold_right insert_name [] l.
(* l[::step], step >= 1 *)
Fixpoint every (step wait : nat) {A} (l : list A) : list A :=
  match l with
  | [] => []
  | x :: r => match wait with O => x :: every step (step - 1) r | S w => every step w r end
  end.
(* the frames of the animation; [] : no file is written *)
Definition gif_frames (prefix : name) (skip_frame : Z) (listing : list name) : list name :=
  let files := sort_names (filter (globbed prefix) listing) in
  if (skip_frame >? 0)%Z then every (Z.to_nat (skip_frame + 1)) 0 files else files.
