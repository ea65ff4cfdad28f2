(* Model of fea/solver.py: the wrappers around fea/solver_elastic.py. *)
From Coq Require Import String.
From Verif Require Import Base Solver_model.
Open Scope string_scope.
Open Scope list_scope.

(* Python's binding of arguments to parameters, for functions without *args and
   **kwargs: a parameter is (name, has a default) *)
Definition params := list (string * bool).
Definition strmem (x : string) (l : list string) : bool := existsb (String.eqb x) l.
Fixpoint dup (l : list string) : bool :=
  match l with [] => false | x :: r => (strmem x r || dup r)%bool end.
Definition bind (ps : params) (npos : nat) (kws : list string) : res unit :=
  if Nat.ltb (List.length ps) npos then Err TypeError                            (* too many positional *)
  else if dup kws then Err TypeError                                             (* keyword repeated *)
  else if existsb (fun k => negb (strmem k (map fst ps))) kws then Err TypeError (* unexpected keyword *)
  else if existsb (fun k => strmem k (map fst (firstn npos ps))) kws then Err TypeError (* multiple values *)
  else if existsb (fun p => (negb (snd p) && negb (strmem (fst p) kws))%bool) (skipn npos ps) then Err TypeError (* missing *)
  else Ok tt.

Definition req (l : list string) : params := map (fun x => (x, false)) l.
Definition opt (l : list string) : params := map (fun x => (x, true)) l.
Definition problem_single : list string :=
  ["basis"; "free_dofs"; "dirichlet_dofs"; "force"; "E0"; "Emin"; "p"; "nu0"; "rho"].
Definition problem_multi : list string :=
  ["basis"; "free_dofs"; "dirichlet_dofs"; "force_list"; "E0"; "Emin"; "p"; "nu0"; "rho"; "u_all"].
(* solver_elastic.py:146-156 *)
Definition sig_compute_compliance_basis : params := req problem_single ++
  opt ["elem_func"; "solver_config"; "solver"; "rtol"; "maxiter"; "petsc_options"; "timer"].
(* solver_elastic.py:240-255, 392-407 *)
Definition sig_solve_multi_load : params := req problem_multi ++
  opt ["solver"; "solver_config"; "elem_func"; "rtol"; "maxiter"; "petsc_options"; "timer"].
Definition sig_compute_compliance_basis_multi_load : params := sig_solve_multi_load.

(* the wrappers' own signatures: solver.py:37-47, 74-87 (and 104-117), 137-152 (and
   173-188) *)
Definition sig_w_simp : params := req problem_single.
Definition sig_w_single : params := req problem_single ++ opt ["elem_func"; "solver"; "rtol"; "maxiter"].
Definition sig_w_multi : params := req problem_multi ++ opt ["solver"; "elem_func"; "rtol"; "maxiter"; "n_joblib"].

Section calls.
  Context {A : Type}.
  (* what the wrapped function does once its arguments are bound *)
  Variable inner : res A.
  Definition call (ps : params) (npos : nat) (kws : list string) (body : res A) : res A :=
    match bind ps npos kws with Ok _ => body | Err e => Err e end.
  (* solver.py:37-59 *)
  Definition w_compute_compliance_simp_basis (npos : nat) (kws : list string) : res A :=
    call sig_w_simp npos kws (call sig_compute_compliance_basis 9 ["elem_func"] inner).
  (* solver.py:74-101 *)
  Definition w_compute_compliance_basis (npos : nat) (kws : list string) : res A :=
    call sig_w_single npos kws (call sig_compute_compliance_basis 9 ["elem_func"; "solver"; "rtol"; "maxiter"] inner).
  (* solver.py:104-134 *)
  Definition w_compute_compliance_basis_numba (npos : nat) (kws : list string) : res A :=
    call sig_w_single npos kws (w_compute_compliance_basis 9 ["elem_func"; "solver"; "rtol"; "maxiter"]).
  (* solver.py:137-169 *)
  Definition w_solve_multi_load (npos : nat) (kws : list string) : res A :=
    call sig_w_multi npos kws (call sig_solve_multi_load 10 ["solver"; "elem_func"; "rtol"; "maxiter"; "n_joblib"] inner).
  (* solver.py:173-205 *)
  Definition w_compute_compliance_basis_multi_load (npos : nat) (kws : list string) : res A :=
    call sig_w_multi npos kws
      (call sig_compute_compliance_basis_multi_load 10 ["solver"; "elem_func"; "rtol"; "maxiter"; "n_joblib"] inner).
End calls.

(* solver.py:20-34 *)
Inductive solver_arg := AName (s : string) | ACfg (c : lcfg).
Definition normalize_solver_arg (a : solver_arg) (rtol : R) (maxiter : option nat) : lcfg :=
  match a with
  | ACfg c => c
  | AName s => mkLcfg s rtol maxiter ONone (String.eqb s "auto")
  end.
(* solver.py:61-71 *)
Definition w_solve_u {V} (run : backend -> res (V * Z)) (a : solver_arg) (rtol : R) (maxiter : option nat)
  : list backend * res V := solve_u run (normalize_solver_arg a rtol maxiter).
