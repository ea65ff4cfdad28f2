(* Model of the object HelmholtzFilterElement, filters/helmholtz_filter_element.py:
   237-262 and 280-590: its state, the three solver options and what each call does.
   The matrices are those of EHelm_model.  SuperLU and PyAMG are functions of the matrix
   they were built from; the conjugate gradients are the SciPy iteration of CG_model.
   An object constructed without A or V is not modelled; diag matrices are vectors;
   prints are left out. *)
From Verif Require Import Base Sums Mesh_model Fea_model CG_model EHelm_model.
Open Scope R_scope.
Open Scope list_scope.

(* :447-457 *)
Record fobj := mkF {
  o_mesh : emesh; o_radius : R;
  o_A : mat; o_V : vec;
  o_opt : string;
  o_lu : option mat;           (* A_solver: the matrix it was factorised from *)
  o_M : option vec;            (* M: the stored inverse diagonal *)
  o_ml : option mat;           (* pyamg_solver: the matrix it was built from *)
  o_rtol : R; o_maxiter : option nat }.
(* the dataclass constructor with the defaults of :449-457 *)
Definition construct (m : emesh) (r : R) (A : mat) (V : vec) (opt : string) : fobj :=
  mkF m r A V opt None None None (1 / 100000) (Some 1000%nat).

(* :555-556 *)
Definition create_solver (f : fobj) : fobj :=
  mkF (o_mesh f) (o_radius f) (o_A f) (o_V f) (o_opt f) (Some (o_A f)) (o_M f) (o_ml f) (o_rtol f) (o_maxiter f).
(* :558-574 *)
Definition create_linear_operator (rtol : R) (maxiter : Z) (f : fobj) : fobj :=
  let m := if Z.ltb 0 maxiter then Z.to_nat maxiter else Nat.div (nel (o_mesh f)) 4 in
  mkF (o_mesh f) (o_radius f) (o_A f) (o_V f) (o_opt f) (o_lu f) (Some (fun i => / (o_A f i i + / 100000000))) (o_ml f)
    rtol (Some m).
(* :576-578 *)
Definition create_amgsolver (f : fobj) : fobj :=
  mkF (o_mesh f) (o_radius f) (o_A f) (o_V f) (o_opt f) (o_lu f) (o_M f) (Some (o_A f)) (o_rtol f) (o_maxiter f).
Definition set_option (s : string) (f : fobj) : fobj :=
  mkF (o_mesh f) (o_radius f) (o_A f) (o_V f) s (o_lu f) (o_M f) (o_ml f) (o_rtol f) (o_maxiter f).
(* :547-553 *)
Definition build (f : fobj) : fobj :=
  if String.eqb (o_opt f) "cg_pyamg" then create_amgsolver f else
  if String.eqb (o_opt f) "cg_jacobi" then create_linear_operator (1 / 100000) (-1) f else
  if String.eqb (o_opt f) "spsolve" then create_solver f else f.
(* :536-553; the object after the call, and whether it raised *)
Definition preprocess (s : option string) (f : fobj) : fobj * option exn :=
  match s with
  | None => (build f, None)
  | Some s =>
    if existsb (String.eqb s) ["cg_jacobi"; "cg_pyamg"; "spsolve"]%string
    then (build (set_option s f), None) else (f, Some ValueError)
  end.
(* :423-444, 459-470: the design mask reaches prepare_helmholtz_filter and is not used there *)
Definition update_matrices (m : emesh) (r : R) (mask : option (nat -> bool)) : mat * vec := (Amat m r, vnorm m).
Definition update_radius (mask : option (nat -> bool)) (r : R) (f : fobj) : fobj * option exn :=
  let '(A, V) := update_matrices (o_mesh f) r mask in
  preprocess (Some (o_opt f))
    (mkF (o_mesh f) r A V (o_opt f) (o_lu f) (o_M f) (o_ml f) (o_rtol f) (o_maxiter f)).
(* :472-495 *)
Definition from_defaults (m : emesh) (r : R) (mask : option (nat -> bool)) (opt : string) : res fobj :=
  let '(A, V) := update_matrices m r mask in
  match preprocess (Some opt) (construct m r A V opt) with
  | (f, None) => Ok f
  | (_, Some e) => Err e
  end.

Section Run.
Variable lu_solve : nat -> mat -> vec -> vec.         (* scipy.sparse.linalg.splu(A).solve, A of order n *)
Variable amg_solve : nat -> mat -> vec -> R -> vec.   (* pyamg.smoothed_aggregation_solver(A).solve(b, tol) *)

Definition rhs (f : fobj) (v : vec) : vec := fun i => o_V f i * v i.
(* :307-329 and :364-387 with a given maxiter; None meets A.shape // 5, a tuple *)
Definition apply_cg (f : fobj) (v : vec) : res (option vec) :=
  match o_maxiter f with
  | None => Err TypeError
  | Some k =>
    let n := nel (o_mesh f) in
    let (x, info) := cg n (mv n (o_A f)) (match o_M f with None => fun w => w | Some d => fun w i => d i * w i end)
                       (rhs f v) (o_rtol f) (Some k) in
    if Nat.ltb 0 info then Err RuntimeError else Ok (Some x)
  end.
Definition apply_lu (f : fobj) (v : vec) : res (option vec) :=
  match o_lu f with None => Err AttributeError | Some A => Ok (Some (lu_solve (nel (o_mesh f)) A (rhs f v))) end.
Definition apply_amg (f : fobj) (v : vec) : res (option vec) :=
  match o_ml f with None => Err AttributeError | Some A => Ok (Some (amg_solve (nel (o_mesh f)) A (rhs f v) (o_rtol f))) end.
(* :498-514 *)
Definition forward (f : fobj) (rho : vec) : res (option vec) :=
  if String.eqb (o_opt f) "spsolve" then apply_lu f rho else
  if String.eqb (o_opt f) "cg_jacobi" then apply_cg f rho else
  if String.eqb (o_opt f) "cg_pyamg" then apply_amg f rho else Ok None.
(* :516-534 *)
Definition gradient (f : fobj) (v : vec) : res (option vec) :=
  if String.eqb (o_opt f) "spsolve" then apply_lu f v else
  if String.eqb (o_opt f) "cg_jacobi" then apply_cg f v else
  if String.eqb (o_opt f) "cg_pyamg" then apply_amg f v else Err ValueError.

(* :237-262 compute_filter_gradient_matrix *)
Definition filter_grad_vec (m : emesh) (r : R) (v : vec) : vec := lu_solve (nel m) (Amat m r) (fun i => vnorm m i * v i).
Definition filter_jacobian (m : emesh) (r : R) (i j : nat) : R :=
  filter_grad_vec m r (fun k => if Nat.eqb k j then 1 else 0) i.
End Run.

(* calls on the object; a raised exception is caught by the caller and the object kept *)
Inductive fop :=
| UpdateRadius (r : R)
| Preprocess (s : option string)
| CreateSolver | CreateAmg | CreateLinearOperator (rtol : R) (maxiter : Z)
| Forward (v : vec) | Gradient (v : vec).
Definition fstep (mask : option (nat -> bool)) (f : fobj) (o : fop) : fobj :=
  match o with
  | UpdateRadius r => fst (update_radius mask r f)
  | Preprocess s => fst (preprocess s f)
  | CreateSolver => create_solver f
  | CreateAmg => create_amgsolver f
  | CreateLinearOperator rtol k => create_linear_operator rtol k f
  | Forward _ | Gradient _ => f
  end.
