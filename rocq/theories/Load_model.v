(* mesh/loader.py: reading a mesh file and assembling its stiffness matrix. *)
From Verif Require Import Base Fea_model.
From Verif Require Toy_model Tags_model.
Open Scope R_scope.

(* skfem.models.elasticity.linear_stress(Lambda, Mu): C(T) = 2 Mu T + Lambda tr(T) I
   (library code, used by loader.py:42) *)
Definition linear_stress (Lambda Mu : R) (T : tensor) : tensor :=
  fun i j => 2 * Mu * T i j + Lambda * (trace T * delta i j).
(* skfem.models.elasticity.linear_elasticity(Lambda=1., Mu=1.): the integrand
   ddot(C(sym_grad u), sym_grad v) *)
Definition linear_elasticity (Lambda Mu : R) (gu gv : tensor) : R :=
  ddot (linear_stress Lambda Mu (sym_grad gu)) (sym_grad gv).
(* skfem.asm of a form without coefficients *)
Definition asm_form (B : fembasis) (form : tensor -> tensor -> R) : mat := fun k l =>
  sum (fb_ne B) (fun e => sum (fb_nq B) (fun q => form (fb_grad B e q l) (fb_grad B e q k) * fb_dx B e q)).

(* loader.py:36-43.  [types]: the cell types in the file; [read c] the vector basis
   (intorder=2) that scikit-fem builds for the file read as a mesh of class c.
   The two material arguments are handed to linear_elasticity by position. *)
Definition load_stiffness_matrix (types : list Tags_model.name) (read : Toy_model.mesh_class -> fembasis) (E nu : R) : res mat :=
  let! c := Toy_model.basis_from_file types in
  Ok (asm_form (read c) (linear_elasticity E nu)).
(* loader.py:38-39: the defaults *)
Definition default_E : R := 1.
Definition default_nu : R := 3 / 10.
