(* C97: specification.  What a user expects from load_stiffness_matrix(path, E, nu). *)
From Verif Require Import Base Fea_model Fea_spec.
Open Scope R_scope.

(* K is the stiffness matrix, on basis B, of a homogeneous isotropic body with Young's
   modulus E and Poisson's ratio nu: entry (k,l) integrates
   lambda div(u_l) div(u_k) + 2 mu eps(u_l):eps(u_k), with
   lambda = nu E / ((1+nu)(1-2nu)) and mu = E / (2(1+nu)) *)
Definition material_matrix (B : fembasis) (E nu : R) (K : mat) : Prop :=
  forall k l, K k l = sum (fb_ne B) (fun e => sum (fb_nq B) (fun q =>
    (nu * E / ((1 + nu) * (1 - 2 * nu)) * (trace (fb_grad B e q l) * trace (fb_grad B e q k)) +
     2 * (E / (2 * (1 + nu))) * ddot (sym_grad (fb_grad B e q l)) (sym_grad (fb_grad B e q k))) * fb_dx B e q)).
(* the displacement u has no volume change at any quadrature point *)
Definition isochoric (B : fembasis) (u : vec) : Prop :=
  forall e q, (e < fb_ne B)%nat -> (q < fb_nq B)%nat -> trace (grad_of B u e q) = 0.
(* ... but is not rigid: some point with positive weight is sheared *)
Definition sheared (B : fembasis) (u : vec) : Prop :=
  (forall e q, (e < fb_ne B)%nat -> (q < fb_nq B)%nat -> 0 <= fb_dx B e q) /\
  exists e q i j, (e < fb_ne B)%nat /\ (q < fb_nq B)%nat /\ (i < 3)%nat /\ (j < 3)%nat /\ 0 < fb_dx B e q /\
    sym_grad (grad_of B u e q) i j <> 0.
