(* fea/composer.py:445-489: the stress tensors handed to von_mises_from_stress_tensor. *)
From Verif Require Import Base Fea_model.
Open Scope R_scope.

(* composer.py:445-466 evaluated by Functional.elemental (composer.py:483-488):
   scikit-fem multiplies the integrand by the weights and sums over the quadrature
   points of the element. *)
Definition stress_field (B : fembasis) (nu : R) (E : nat -> R) (u : vec) (e : nat) : tensor := fun i j =>
  sum (fb_nq B) (fun q => stress (lam_of E nu e) (mu_of E nu e) (grad_of B u e q) i j * fb_dx B e q).
(* composer.py:469-517: the reported von Mises stress of element e *)
Definition von_mises_field (B : fembasis) (nu : R) (E : nat -> R) (u : vec) (e : nat) : R :=
  von_mises (stress_field B nu E u e).
