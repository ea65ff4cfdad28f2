(* Model of the finite element part: fea/composer.py (assembly, strain energy, von
   Mises) and fea/solver_elastic.py (compliance).

   scikit-fem is abstracted to what the forms see: for every element e and
   quadrature point q a weight dx and, for every global basis function k, the
   gradient of k there (0 if k does not live on e).  Vectors and matrices are
   functions of the dof index, read below n. *)
From Verif Require Import Base Sums Material_model Mesh_model.
Open Scope R_scope.
Open Scope list_scope.

Definition vec := nat -> R.
Definition mat := nat -> nat -> R.
Definition sum (n : nat) (f : nat -> R) : R := rsum (map f (seq 0 n)).
Definition dot (n : nat) (u v : vec) : R := sum n (fun i => u i * v i).
Definition mv (n : nat) (K : mat) (u : vec) : vec := fun i => sum n (fun j => K i j * u j).

(* ---- 3x3 tensors (skfem.helpers) ---- *)
Definition tensor := nat -> nat -> R.
Definition sym_grad (g : tensor) : tensor := fun i j => / 2 * (g i j + g j i).
Definition trace (s : tensor) : R := s 0%nat 0%nat + s 1%nat 1%nat + s 2%nat 2%nat.
Definition ddot (s t : tensor) : R := sum 3 (fun i => sum 3 (fun j => s i j * t i j)).
Definition delta (i j : nat) : R := if Nat.eqb i j then 1 else 0.
(* composer.py:372-388, solver_elastic.py:470-484: stress and energy density *)
Definition stress (lam mu : R) (g : tensor) : tensor :=
  fun i j => 2 * mu * sym_grad g i j + lam * (trace (sym_grad g) * delta i j).
Definition energy_density (lam mu : R) (g : tensor) : R :=
  / 2 * ddot (stress lam mu g) (sym_grad g).
(* composer.py:84-96: integrand of the stiffness form *)
Definition stiffness_form (lam mu : R) (gu gv : tensor) : R :=
  lam * trace (sym_grad gu) * trace (sym_grad gv) + 2 * mu * ddot (sym_grad gu) (sym_grad gv).
(* composer.py:492-517 *)
Definition von_mises (s : tensor) : R :=
  sqrt (/ 2 * ((s 0%nat 0%nat - s 1%nat 1%nat) ^ 2 + (s 1%nat 1%nat - s 2%nat 2%nat) ^ 2 +
               (s 2%nat 2%nat - s 0%nat 0%nat) ^ 2 +
               6 * (s 0%nat 1%nat ^ 2 + s 1%nat 2%nat ^ 2 + s 2%nat 0%nat ^ 2))).

(* the discretisation: basis of scikit-fem *)
Record fembasis := mkBasis {
  fb_n : nat;                                   (* dofs *)
  fb_ne : nat;                                  (* elements *)
  fb_nq : nat;                                  (* quadrature points per element *)
  fb_dx : nat -> nat -> R;                      (* e q -> weight *)
  fb_grad : nat -> nat -> nat -> tensor }.      (* e q k -> gradient of basis function k *)

(* basis.interpolate(u).grad at quadrature point q of element e *)
Definition grad_of (B : fembasis) (u : vec) (e q : nat) : tensor :=
  fun i j => sum (fb_n B) (fun k => u k * fb_grad B e q k i j).
(* composer.py:53-100 for given element moduli E_elem: asm of the form *)
Definition lam_of (E : nat -> R) (nu : R) (e : nat) : R := fst (lam_mu (E e) nu).
Definition mu_of (E : nat -> R) (nu : R) (e : nat) : R := snd (lam_mu (E e) nu).
Definition stiffness (B : fembasis) (nu : R) (E : nat -> R) : mat := fun k l =>
  sum (fb_ne B) (fun e => sum (fb_nq B) (fun q =>
    stiffness_form (lam_of E nu e) (mu_of E nu e) (fb_grad B e q l) (fb_grad B e q k) * fb_dx B e q)).
(* solver_elastic.py:487-540 (and composer.py:391-440): element energies *)
Definition strain_energy (B : fembasis) (nu : R) (E : nat -> R) (u : vec) (e : nat) : R :=
  sum (fb_nq B) (fun q => energy_density (lam_of E nu e) (mu_of E nu e) (grad_of B u e q) * fb_dx B e q).

(* scalar problems: gradients are vectors, stored in row 0 of the tensor
   (composer.py:103-145) *)
Definition vdot3 (g h : tensor) : R := sum 3 (fun i => g 0%nat i * h 0%nat i).
Definition conduction (B : fembasis) (k : nat -> R) : mat := fun a b =>
  sum (fb_ne B) (fun e => sum (fb_nq B) (fun q =>
    k e * vdot3 (fb_grad B e q b) (fb_grad B e q a) * fb_dx B e q)).

(* ---- Dirichlet conditions and compliance ---- *)
(* skfem.enforce(K, f, D=D): rows of D become identity rows, f is 0 there *)
Definition enforceK (D : list nat) (K : mat) : mat := fun i j =>
  if mem i D then (if Nat.eqb i j then 1 else 0) else K i j.
Definition enforceF (D : list nat) (f : vec) : vec := fun i => if mem i D then 0 else f i.
(* solver_elastic.py:146-237, numerical solver given by [slv] *)
Definition compliance_single (n : nat) (slv : mat -> vec -> vec) (K : mat) (D : list nat) (f : vec) : R * vec :=
  let Fe := enforceF D f in
  let u := slv (enforceK D K) Fe in
  (rsum (map (fun i => Fe i * u i) (setdiff1d (seq 0 n) D)), u).
(* solver_elastic.py:240-467, with the loads of more than one case solved by
   [slvm] for all right-hand sides at once; no load at all is force_list[0] of an
   empty list *)
Definition compliance_multi (n : nat) (slv : mat -> vec -> vec) (slvm : mat -> list vec -> list vec)
    (K : mat) (D : list nat) (fs : list vec) : res (list R * list vec) :=
  match fs with
  | [] => Err IndexError
  | [f] => let (c, u) := compliance_single n slv K D f in Ok ([c], [u])
  | _ => let Fs := map (enforceF D) fs in
         let us := slvm (enforceK D K) Fs in
         Ok (zipwith (dot n) Fs us, us)
  end.
(* FEM_SimpLinearElasticity.objectives_multi_load (solver_elastic.py:640-668) *)
Definition objectives (n : nat) (slv : mat -> vec -> vec) (slvm : mat -> list vec -> list vec)
    (K : mat) (D : list nat) (fs : list vec) (force_scale : R) : res (list R * list vec) :=
  compliance_multi n slv slvm K D (map (fun f i => f i * force_scale) fs).
