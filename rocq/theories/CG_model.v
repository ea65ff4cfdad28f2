(* Model of the preconditioned conjugate gradient iteration behind the solver
   options 'cg_jacobi' (fea/solver_elastic.py:80-89, filters/helmholtz_filter_element.py:
   307-329, 364-387): scipy.sparse.linalg.cg, in exact arithmetic, as SciPy >= 1.12
   implements it (the dependency of pyproject.toml:27 is >= 1.15.2).  The start vector
   is 0, the tolerance is rtol * |b| with atol = 0, and the test comes before each
   step, so a solution reached in the last allowed step is reported as not converged.
   A division by a zero (numpy: nan and a warning) is Coq's x / 0. *)
From Verif Require Import Base Sums Mesh_model Fea_model Solver_model.
Open Scope R_scope.
Open Scope list_scope.

Definition norm (n : nat) (v : vec) : R := sqrt (dot n v v).

(* scipy cg: the loop, [k] steps still allowed; prev is (p, rho_prev) of the last step *)
Fixpoint cg_loop (n : nat) (A M : vec -> vec) (atol : R) (k : nat) (prev : option (vec * R)) (x r : vec) : vec * bool :=
  match k with
  | O => (x, false)
  | S k' =>
    if Rltb (norm n r) atol then (x, true) else
    let z := M r in
    let rho := dot n r z in
    let p := match prev with
             | None => z
             | Some (p', rho_prev) => fun i => p' i * (rho / rho_prev) + z i
             end in
    let q := A p in
    let alpha := rho / dot n p q in
    cg_loop n A M atol k' (Some (p, rho)) (fun i => x i + alpha * p i) (fun i => r i - alpha * q i)
  end.
(* scipy cg: the result and info (0: converged, otherwise maxiter) *)
Definition cg (n : nat) (A M : vec -> vec) (b : vec) (rtol : R) (maxiter : option nat) : vec * nat :=
  if Reqb (norm n b) 0 then (b, O) else
  let m := match maxiter with None => (n * 10)%nat | Some m => m end in
  let (x, ok) := cg_loop n A M (rtol * norm n b) m None (fun _ => 0) b in
  (x, if ok then O else m).

(* diagonal preconditioner 1 / (diag + eps): solver_elastic.py:81-83 (eps = 0),
   helmholtz_filter_element.py:564-573 (eps = 1e-8) *)
Definition jacobi (eps : R) (A : mat) (v : vec) : vec := fun i => / (A i i + eps) * v i.

(* fea/solver_elastic.py:80-143 with option cg_jacobi and the SciPy iteration in place
   of the back end: [other] are the remaining back ends *)
Definition cg_backend (n : nat) (K : mat) (F : vec) (other : backend -> res (vec * Z)) (b : backend) : res (vec * Z) :=
  match b with
  | BJacobi rtol maxiter =>
      let (x, info) := cg n (mv n K) (jacobi 0 K) F rtol maxiter in Ok (x, Z.of_nat info)
  | _ => other b
  end.
(* compute_compliance_basis, solver_elastic.py:176-237, solver='cg_jacobi' *)
Definition cg_compliance (n : nat) (K : mat) (D : list nat) (f : vec) (rtol : R) (maxiter : option nat)
    (other : mat -> vec -> backend -> res (vec * Z)) : res (R * vec) :=
  let Ke := enforceK D K in
  let Fe := enforceF D f in
  let! u := snd (single_load_solve (cg_backend n Ke Fe (other Ke Fe)) (mkLcfg "cg_jacobi" rtol maxiter ONone false) n) in
  Ok (rsum (map (fun i => Fe i * u i) (setdiff1d (seq 0 n) D)), u).
