(* Model of core/projection.py (whole file), core/derivatives.py:25-89 and the
   scalar interpolation laws of fea/composer.py:19-50, over exact reals.
   Arrays are lists of reals; NumPy's element-wise operations are [map]s. *)
From Verif Require Import Base.
Open Scope R_scope.

(* projection.py:9,10 etc.: np.tanh is the real hyperbolic tangent *)
Definition tiny : R := 1 / 1000000000000.          (* the literal 1e-12 *)

(* projection.py:4-11, one element *)
Definition heaviside_projection (rho beta eta : R) : R :=
  let numerator := tanh (beta * eta) + tanh (beta * (rho - eta)) in
  let denominator := tanh (beta * eta) + tanh (beta * (1 - eta)) in
  numerator / (denominator + tiny).

(* projection.py:14-24, one element *)
Definition heaviside_projection_derivative (rho beta eta : R) : R :=
  let numerator := beta * (1 - tanh (beta * (rho - eta)) ^ 2) in
  let denominator := tanh (beta * eta) + tanh (beta * (1 - eta)) in
  numerator / (denominator + tiny).

(* A heap of NumPy buffers for the in-place variants: [alloc] is
   np.empty_like (fresh location; its initial contents are irrelevant because
   every later statement writes it before reading), [write] an [out=] store. *)
Record heap := mkHeap { h_next : nat; h_get : nat -> list R }.
Definition write (h : heap) (l : nat) (v : list R) : heap :=
  mkHeap (h_next h) (fun k => if Nat.eqb k l then v else h_get h k).
Definition alloc (h : heap) (like : nat) : nat * heap :=
  (h_next h, mkHeap (S (h_next h))
     (fun k => if Nat.eqb k (h_next h) then map (fun _ => 0) (h_get h like) else h_get h k)).

(* projection.py:59-60, 101-102: "if out is None: out = np.empty_like(rho)" *)
Definition out_buffer (h : heap) (rho : nat) (out : option nat) : nat * heap :=
  match out with Some o => (o, h) | None => alloc h rho end.

(* projection.py:27-77, statement by statement; returns the returned buffer
   and the final heap.  [rho] and [out] may be the same buffer. *)
Definition heaviside_projection_inplace
    (h : heap) (rho : nat) (beta eta : R) (out : option nat) : nat * heap :=
  let '(o, h) := out_buffer h rho out in                                  (* 59-60 *)
  let '(t, h) := alloc h rho in                                           (* 63 *)
  let h := write h t (map (fun x => x - eta) (h_get h rho)) in            (* 66 *)
  let h := write h t (map (fun x => x * beta) (h_get h t)) in             (* 67 *)
  let h := write h t (map tanh (h_get h t)) in                            (* 68 *)
  let numerator := tanh (beta * eta) in                                   (* 70 *)
  let h := write h o (map (fun x => numerator + x) (h_get h t)) in        (* 71 *)
  let denominator := tanh (beta * eta) + tanh (beta * (1 - eta)) + tiny in (* 74 *)
  let h := write h o (map (fun x => x / denominator) (h_get h o)) in      (* 76 *)
  (o, h).

(* projection.py:80-118, statement by statement *)
Definition heaviside_projection_derivative_inplace
    (h : heap) (rho : nat) (beta eta : R) (out : option nat) : nat * heap :=
  let '(o, h) := out_buffer h rho out in                                  (* 101-102 *)
  let h := write h o (map (fun x => x - eta) (h_get h rho)) in            (* 105 *)
  let h := write h o (map (fun x => x * beta) (h_get h o)) in             (* 106 *)
  let h := write h o (map cosh (h_get h o)) in                            (* 109 *)
  let h := write h o (map (fun x => x * x) (h_get h o)) in                (* 110 *)
  let h := write h o (map (fun x => 1 / x) (h_get h o)) in                (* 111 *)
  let h := write h o (map (fun x => x * beta) (h_get h o)) in             (* 113 *)
  let denom := tanh (beta * eta) + tanh (beta * (1 - eta)) + tiny in      (* 115 *)
  let h := write h o (map (fun x => x / denom) (h_get h o)) in            (* 116 *)
  (o, h).

(* NumPy's float power [x ** p]; None stands for NaN or infinity.
   - x > 0: the real power;
   - x = 0: 0 for p > 0, 1 for p = 0, infinite for p < 0;
   - x < 0: NaN unless p is an integer. *)
Definition npow (x p : R) : option R :=
  if Rlt_dec 0 x then Some (Rpower x p)
  else if Req_EM_T x 0 then
    (if Rlt_dec 0 p then Some 0 else if Req_EM_T p 0 then Some 1 else None)
  else if Req_EM_T p (IZR (Rfloor p)) then Some (powerRZ x (Rfloor p))
  else None.

(* composer.py:19-22 *)
Definition simp_interpolation (rho E0 Emin p : R) : option R :=
  match npow rho p with Some y => Some (Emin + (E0 - Emin) * y) | None => None end.

(* composer.py:25-39.  Coq's x / 0 is unspecified; every theorem about it
   assumes the denominator is not 0. *)
Definition ramp_interpolation (rho E0 Emin p : R) : R :=
  Emin + (E0 - Emin) * (rho / (1 + p * (1 - rho))).

(* composer.py:46-50 *)
Definition lam_mu (E nu : R) : R * R :=
  ((nu * E) / ((1 + nu) * (1 - 2 * nu)), E / (2 * (1 + nu))).

Definition floor6 : R := 1 / 1000000.              (* the literal 1e-6 *)

(* derivatives.py:25-26: the base max(rho,1e-6) is positive *)
Definition E_simp (rho E0 Emin p : R) : R :=
  Emin + (E0 - Emin) * Rpower (Rmax rho floor6) p.

(* derivatives.py:29-31 *)
Definition E_ramp (rho E0 Emin p : R) : R :=
  let denom := 1 + p * (1 - rho) in Emin + (E0 - Emin) * (rho / denom).

(* derivatives.py:34-39 *)
Definition dE_drho_simp (rho E0 Emin p : R) : R :=
  p * (E0 - Emin) * Rpower (Rmax rho floor6) (p - 1).

(* derivatives.py:42-52 *)
Definition dC_drho_simp (rho strain_energy E0 Emin p : R) : R :=
  let dE := dE_drho_simp rho E0 Emin p in
  let E := E_simp rho E0 Emin p in
  -2 * strain_energy * dE / Rmax E tiny.

(* derivatives.py:56-62 *)
Definition dE_drho_ramp (rho E0 Emin p : R) : R :=
  let denom := 1 + p * (1 - rho) in
  (E0 - Emin) * (denom - p * rho) / denom ^ 2.

(* derivatives.py:65-68 *)
Definition dC_drho_ramp (rho strain_energy E0 Emin p : R) : R :=
  let dE := dE_drho_ramp rho E0 Emin p in
  let E := E_ramp rho E0 Emin p in
  -2 * strain_energy * dE / Rmax E tiny.

(* derivatives.py:71-78 and 81-89 on buffers *)
Definition dE_drho_ramp_inplace (h : heap) (rho out : nat) (E0 Emin p : R) : heap :=
  let r := h_get h rho in
  let h := write h out r in                                               (* 76 *)
  let r := h_get h rho in
  write h out (map (fun x => (E0 - Emin) * ((1 + p * (1 - x)) - p * x)
                             / (1 + p * (1 - x)) ^ 2) r).                 (* 77-78 *)

Definition dC_drho_ramp_inplace
    (h : heap) (rho energy out : nat) (E0 Emin p : R) : heap :=
  let h := dE_drho_ramp_inplace h rho out E0 Emin p in                    (* 86 *)
  let E := map (fun x => E_ramp x E0 Emin p) (h_get h rho) in             (* 87 *)
  let h := write h out (zipwith (fun o e => o / Rmax e tiny) (h_get h out) E) in (* 88 *)
  write h out (zipwith (fun o w => o * (-2 * w)) (h_get h out) (h_get h energy)). (* 89 *)
