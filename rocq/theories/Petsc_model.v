(* Model of fea/solver_petsc.py:127-237 (the calls made on PETSc's objects), of the
   stand-in fea/_petsc_compat.py and of the PETSc branches of solve_u and
   solve_multi_load.  PETSc itself is an oracle. *)
From Verif Require Import Base Sums Mesh_model Fea_model Solver_model Heat_model.
Open Scope string_scope.
Open Scope R_scope.
Open Scope list_scope.

(* the part of a KSP object the calls below can change *)
Record ksp := mkKsp {
  k_prefix : option string; k_type : string; k_pc : string; k_factor : option string;
  k_rtol : R; k_maxit : Z }.
(* PETSc.KSP().create: PETSc's documented defaults (KSPSetTolerances: 1e-5, 10000) *)
Definition fresh_ksp : ksp := mkKsp None "gmres" "ilu" None (1 / 10 ^ 5) 10000%Z.
(* the setters *)
Definition set_prefix (p : string) (k : ksp) : ksp :=
  mkKsp (Some p) (k_type k) (k_pc k) (k_factor k) (k_rtol k) (k_maxit k).
Definition set_type (t : string) (k : ksp) : ksp :=
  mkKsp (k_prefix k) t (k_pc k) (k_factor k) (k_rtol k) (k_maxit k).
Definition set_pc (t : string) (k : ksp) : ksp :=
  mkKsp (k_prefix k) (k_type k) t (k_factor k) (k_rtol k) (k_maxit k).
Definition set_factor (t : string) (k : ksp) : ksp :=
  mkKsp (k_prefix k) (k_type k) (k_pc k) (Some t) (k_rtol k) (k_maxit k).
Definition set_tol (r : R) (m : option nat) (k : ksp) : ksp :=
  mkKsp (k_prefix k) (k_type k) (k_pc k) (k_factor k) r (match m with Some m => Z.of_nat m | None => k_maxit k end).

(* what PETSc's options database says for one prefix; None: not mentioned *)
Record dbentry := mkDb {
  db_type : option string; db_pc : option string; db_factor : option string;
  db_rtol : option R; db_maxit : option Z }.
Definition dflt {A} (a : A) (o : option A) : A := match o with Some x => x | None => a end.
(* ksp.setFromOptions(): every option in the database replaces the present value *)
Definition set_from_options (db : option string -> dbentry) (k : ksp) : ksp :=
  let e := db (k_prefix k) in
  mkKsp (k_prefix k) (dflt (k_type k) (db_type e)) (dflt (k_pc k) (db_pc e))
    (match db_factor e with Some f => Some f | None => k_factor k end)
    (dflt (k_rtol k) (db_rtol e)) (dflt (k_maxit k) (db_maxit e)).

(* the installation: is petsc4py there, which methods it has (hasattr), its options
   database, and what a KSP with a matrix that has already solved for some
   right-hand sides returns for the next one *)
Record penv := mkPenv {
  pe_installed : bool; pe_has_prefix : bool; pe_has_factor : bool;
  pe_db : option string -> dbentry;
  pe_solve : ksp -> mat -> list vec -> vec -> res (vec * Z) }.

(* solver_petsc.py:152-180 *)
Definition create_ksp (E : penv) (rtol : R) (maxiter : option nat) (o : petsc) : ksp :=
  let k := fresh_ksp in
  let k := match prefix o with
           | Some p => if pe_has_prefix E then set_prefix p k else k
           | None => k end in
  let k := set_type (ksp_type o) k in
  let k := set_pc (pc_type o) k in
  let k := match factor_type o with
           | Some f => if pe_has_factor E then set_factor f k else k
           | None => k end in
  let k := set_tol rtol maxiter k in
  if from_options o then set_from_options (pe_db E) k else k.

(* solver_petsc.py:127-135: any exception of the import becomes RuntimeError *)
Definition import_petsc (E : penv) : res unit := if pe_installed E then Ok tt else Err RuntimeError.

(* solver_petsc.py:193-206; _create_mat (138-149) copies the matrix entry by entry *)
Definition solve_u_petsc (E : penv) (A : mat) (b : vec) (rtol : R) (maxiter : option nat) (o : popts)
  : res (vec * Z) :=
  let! _ := import_petsc E in
  pe_solve E (create_ksp E rtol maxiter (normalize_petsc o false)) A [] b.

(* a right-hand side array of one or two dimensions (columns) *)
Inductive rhs := R1 (b : vec) | R2 (bs : list vec).
(* 229-235; [past] are the right-hand sides already solved for *)
Fixpoint columns (E : penv) (k : ksp) (A : mat) (past bs : list vec) : res (list vec * list Z) :=
  match bs with
  | [] => Ok ([], [])
  | b :: r =>
    let! (u, i) := pe_solve E k A past b in
    let! (us, is) := columns E k A (past ++ [b]) r in
    Ok (u :: us, i :: is)
  end.
(* solver_petsc.py:209-237 *)
Definition solve_u_petsc_multi (E : penv) (A : mat) (b : rhs) (rtol : R) (maxiter : option nat) (o : popts)
  : res (list vec * list Z) :=
  let! _ := import_petsc E in
  let o' := normalize_petsc o false in
  match b with
  | R1 b => let! (u, i) := solve_u_petsc E A b rtol maxiter (OPetsc o') in Ok ([u], [i])
  | R2 bs => columns E (create_ksp E rtol maxiter o') A [] bs
  end.

(* fea/solver_elastic.py:111-133 with 137-143 (allow_fallback_to_spsolve) for the two
   PETSc solvers; [direct] is spsolve *)
Definition solve_u_with_petsc (E : penv) (direct : mat -> vec -> res vec) (c : lcfg) (A : mat) (b : vec) : res vec :=
  let r :=
    if String.eqb (l_solver c) "petsc" then solve_u_petsc E A b (l_rtol c) (l_maxiter c) (l_petsc c)
    else let! o := petsc_for_solver (l_solver c) (l_petsc c) in
         solve_u_petsc E A b (l_rtol c) (l_maxiter c) (match o with Some p => OPetsc p | None => ONone end) in
  match r with
  | Ok (u, _) => Ok u
  | Err e => if l_fallback c then direct A b else Err e
  end.

(* fea/solver_elastic.py:332-395 and 456-468, and solver_heat.py:175-195: what the
   multi-load analyses do with a PETSc solver; the flags are only logged *)
Definition petsc_multi (E : penv) (c : lcfg) (A : mat) (bs : list vec) : res (list vec) :=
  let! o := petsc_for_solver (l_solver c) (l_petsc c) in
  let! (us, _) := solve_u_petsc_multi E A (R2 bs) (l_rtol c) (l_maxiter c)
                    (match o with Some p => OPetsc p | None => ONone end) in
  Ok us.
(* fea/solver_elastic.py:240-468 with more than one load *)
Definition elastic_multi_petsc (E : penv) (c : lcfg) (n : nat) (K : mat) (D : list nat) (fs : list vec)
  : res (list R * list vec) :=
  let Fs := map (enforceF D) fs in
  let! us := petsc_multi E c (enforceK D K) Fs in
  Ok (zipwith (dot n) Fs us, us).
(* fea/solver_heat.py:133-195 with at least one load *)
Definition heat_multi_petsc (E : penv) (c : lcfg) (K : mat) (emit : vec) (Ds : list (list nat)) (vals : list R)
  : res (list vec) :=
  match Ds with
  | [] => Err IndexError
  | D0 :: _ => petsc_multi E c (enforceK D0 K) (zipwith (fun D v => enforceV D v emit) Ds vals)
  end.

(* ---- fea/_petsc_compat.py:22-75: used when sktopt.fea.solver_petsc is missing ---- *)
(* 30-61 *)
Definition shim_normalize (o : popts) (direct : bool) : petsc :=
  let base := mkPetsc (if direct then "preonly" else "cg") (if direct then "lu" else "gamg") None None true in
  match o with
  | OPetsc p => p
  | ODict d => mkPetsc (get_str "ksp_type" d (ksp_type base)) (get_str "pc_type" d (pc_type base))
                 (get_opt "pc_factor_mat_solver_type" d None) (get_opt "options_prefix" d None)
                 (get_bool "use_set_from_options" d (from_options base))
  | ONone => base
  end.
(* 63-72 *)
Definition shim_for_solver (solver : string) (o : popts) : res (option petsc) :=
  if negb (String.eqb solver "petsc" || String.eqb solver "petsc_spdirect")
  then Ok (match o with ONone => None | _ => Some (shim_normalize o false) end)
  else Err RuntimeError.
(* 74-75 *)
Definition shim_solve_u_petsc (A : mat) (b : vec) (rtol : R) (maxiter : option nat) (o : popts) : res (vec * Z) :=
  Err RuntimeError.
