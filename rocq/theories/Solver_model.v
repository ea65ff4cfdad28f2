(* Model of fea/solver_elastic.py (solver selection), fea/solver_petsc.py and the
   solver part of DensityMethodConfig.__post_init__. *)
From Verif Require Import Base.
Open Scope string_scope.
Open Scope list_scope.

(* fea/solver_petsc.py:11-17 *)
Record petsc := mkPetsc {
  ksp_type : string; pc_type : string;
  factor_type : option string;        (* pc_factor_mat_solver_type *)
  prefix : option string;             (* options_prefix *)
  from_options : bool }.              (* use_set_from_options *)
Definition petsc_default : petsc := mkPetsc "cg" "gamg" None None true.
(* fea/solver_petsc.py:20-29 *)
Definition direct_petsc : petsc := mkPetsc "preonly" "lu" None None true.

(* Python values a user may put in an options dict *)
Inductive pval := VNone | VStr (s : string) | VBool (b : bool).
Definition py_str (v : pval) : string :=
  match v with VNone => "None" | VStr s => s | VBool true => "True" | VBool false => "False" end.
Definition py_bool (v : pval) : bool :=
  match v with VNone => false | VStr s => negb (String.eqb s "") | VBool b => b end.
Definition odict := list (string * pval).
Fixpoint oget (k : string) (d : odict) : option pval :=
  match d with [] => None | (k', v) :: r => if String.eqb k k' then Some v else oget k r end.
(* str(d.get(k, default)) and bool(d.get(k, default)) *)
Definition get_str (k : string) (d : odict) (dft : string) : string :=
  match oget k d with Some v => py_str v | None => dft end.
Definition get_bool (k : string) (d : odict) (dft : bool) : bool :=
  match oget k d with Some v => py_bool v | None => dft end.
(* dft if d.get(k) is None else str(d[k]) *)
Definition get_opt (k : string) (d : odict) (dft : option string) : option string :=
  match oget k d with None | Some VNone => dft | Some v => Some (py_str v) end.

Inductive popts := ONone | OPetsc (o : petsc) | ODict (d : odict).

(* fea/solver_petsc.py:74-99 *)
Definition normalize_petsc (o : popts) (direct : bool) : petsc :=
  let base := if direct then direct_petsc else petsc_default in
  match o with
  | OPetsc p => p
  | ODict d => mkPetsc (get_str "ksp_type" d (ksp_type base)) (get_str "pc_type" d (pc_type base))
                 (get_opt "pc_factor_mat_solver_type" d None) (get_opt "options_prefix" d None)
                 (get_bool "use_set_from_options" d (from_options base))
  | ONone => base
  end.
(* fea/solver_petsc.py:32-71 *)
Definition orelse {A} (a b : option A) : option A := match a with Some _ => a | None => b end.
Definition merge_petsc (base : petsc) (o : popts) : petsc :=
  match o with
  | ONone => base
  | ODict d => mkPetsc (get_str "ksp_type" d (ksp_type base)) (get_str "pc_type" d (pc_type base))
                 (get_opt "pc_factor_mat_solver_type" d (factor_type base))
                 (get_opt "options_prefix" d (prefix base))
                 (get_bool "use_set_from_options" d (from_options base))
  | OPetsc p => mkPetsc (ksp_type p) (pc_type p) (orelse (factor_type p) (factor_type base))
                 (orelse (prefix p) (prefix base)) (from_options p)
  end.
(* fea/solver_petsc.py:102-124 *)
Definition petsc_for_solver (solver : string) (o : popts) : res (option petsc) :=
  if negb (String.eqb solver "petsc_spdirect") then
    Ok (match o with ONone => None | _ => Some (normalize_petsc o false) end)
  else match o with
  | ONone => Ok (Some direct_petsc)
  | _ =>
    let p := merge_petsc direct_petsc o in
    if negb (String.eqb (ksp_type p) "preonly") then Err ValueError else
    if negb (String.eqb (pc_type p) "lu") then Err ValueError else
    Ok (Some (merge_petsc direct_petsc (OPetsc p)))
  end.

(* fea/solver_elastic.py:34-40 *)
Record lcfg := mkLcfg {
  l_solver : string; l_rtol : R; l_maxiter : option nat; l_petsc : popts; l_fallback : bool }.

(* what reaches a numerical back end (SciPy, PyAMG, PETSc; not modelled) *)
Inductive backend :=
| BJacobi (rtol : R) (maxiter : option nat)
| BAmg (rtol : R) (maxiter : option nat)
| BDirect
| BPetsc (rtol : R) (maxiter : option nat) (o : petsc).

Section Solve.
(* a back end returns a vector and a convergence flag, or raises *)
Variable V : Type.
Variable run : backend -> res (V * Z).

(* fea/solver_elastic.py:80-136: one attempt; which back ends were called, and
   the outcome.  solve_u_petsc normalises its options again. *)
Definition attempt (c : lcfg) : list backend * res (V * Z) :=
  let call b := ([b], run b) in
  if String.eqb (l_solver c) "cg_jacobi" then call (BJacobi (l_rtol c) (l_maxiter c)) else
  if String.eqb (l_solver c) "cg_pyamg" then call (BAmg (l_rtol c) (l_maxiter c)) else
  if String.eqb (l_solver c) "spsolve" then call BDirect else
  if String.eqb (l_solver c) "petsc" then
    call (BPetsc (l_rtol c) (l_maxiter c) (normalize_petsc (l_petsc c) false)) else
  if String.eqb (l_solver c) "petsc_spdirect" then
    match petsc_for_solver (l_solver c) (l_petsc c) with
    | Ok o => call (BPetsc (l_rtol c) (l_maxiter c)
                (normalize_petsc (match o with Some p => OPetsc p | None => ONone end) false))
    | Err e => ([], Err e)
    end
  else ([], Err ValueError).
(* fea/solver_elastic.py:61-143; the flag info is only logged *)
Definition solve_u (c : lcfg) : list backend * res V :=
  let (calls, r) := attempt c in
  match r with
  | Ok (u, _) => (calls, Ok u)
  | Err e =>
    if l_fallback c
    then (calls ++ [BDirect], match run BDirect with Ok (u, _) => Ok u | Err e' => Err e' end)
    else (calls, Err e)
  end.

(* fea/solver_elastic.py:176-223: solver selection of compute_compliance_basis *)
Definition auto_solver (ndof : nat) : string :=
  if Nat.ltb ndof 1000 then "spsolve" else if Nat.ltb ndof 30000 then "cg_pyamg" else "cg_pyamg".
Definition default_maxiter (ndof : nat) : nat := Nat.min 1000 (Nat.max 300 (ndof / 5)).
Definition single_load_cfg (c : lcfg) (ndof : nat) : lcfg :=
  let auto := String.eqb (l_solver c) "auto" in
  mkLcfg (if auto then auto_solver ndof else l_solver c) (l_rtol c)
    (Some (match l_maxiter c with None => default_maxiter ndof | Some m => m end))
    (l_petsc c) auto.
Definition single_load_solve (c : lcfg) (ndof : nat) : list backend * res V :=
  solve_u (single_load_cfg c ndof).
End Solve.
Arguments solve_u {V}. Arguments single_load_solve {V}. Arguments attempt {V}.

(* fea/solver_elastic.py:325-385: what solve_multi_load does with more than one
   load: which factorisation or PETSc options are used for all of them *)
Inductive multi_plan := MLU | MPetsc (rtol : R) (maxiter : option nat) (o : petsc).
Definition multi_load_plan (c : lcfg) : res multi_plan :=
  if String.eqb (l_solver c) "petsc" || String.eqb (l_solver c) "petsc_spdirect" then
    let! o := petsc_for_solver (l_solver c) (l_petsc c) in
    Ok (MPetsc (l_rtol c) (l_maxiter c)
         (normalize_petsc (match o with Some p => OPetsc p | None => ONone end) false))
  else if String.eqb (l_solver c) "auto" || String.eqb (l_solver c) "spsolve" then Ok MLU
  else Err NotImplementedError.

(* core/optimizers/common_density.py:270-311.  Only the fields that differ from
   the defaults are treated as given by the user when solver_option is
   petsc_spdirect. *)
Definition changed_fields (p : petsc) : odict :=
  (if String.eqb (ksp_type p) "cg" then [] else [("ksp_type", VStr (ksp_type p))]) ++
  (if String.eqb (pc_type p) "gamg" then [] else [("pc_type", VStr (pc_type p))]) ++
  (match factor_type p with None => [] | Some s => [("pc_factor_mat_solver_type", VStr s)] end) ++
  (match prefix p with None => [] | Some s => [("options_prefix", VStr s)] end) ++
  (if from_options p then [] else [("use_set_from_options", VBool false)]).
Definition post_init (solver_option : string) (o : popts) : res lcfg :=
  let! o' :=
    if String.eqb solver_option "petsc_spdirect" then
      petsc_for_solver solver_option
        (match o with
         | OPetsc p => match changed_fields p with [] => ONone | d => ODict d end
         | _ => o end)
    else if String.eqb solver_option "petsc" then petsc_for_solver solver_option o
    else Ok (Some (normalize_petsc o false)) in
  Ok (mkLcfg solver_option (/ 100000000) None
        (match o' with Some p => OPetsc p | None => ONone end) false).
