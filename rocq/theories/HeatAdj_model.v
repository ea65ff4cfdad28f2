(* Model of the adjoint fields of the heat objectives and of the energies reported from
   them: fea/solver_heat.py:325-411, 529-549, 705-926. *)
From Verif Require Import Base Sums Material_model OC_model Mesh_model Fea_model Iter_model Heat_model.
Open Scope R_scope.
Open Scope list_scope.

(* solver_heat.py:825-832 with 391-411: rhs_vec of the heat-exchange adjoint.  The
   effective coefficient h rho^p (1-rho)^q is formed at the vertices and interpolated;
   the ambient field is interpolated from one value and is that value (the shape
   functions add up to 1) *)
Definition hx_rhs (H : hbasis) (r : vec) (Tenv h p : R) (q' : nat) : vec := fun a =>
  integral H (fun e q =>
    - Tenv * value_of H (fun v => h * pw (r v) p * (1 - r v) ^ q') e q * gnorm (gradv H r e q) * hb_val H e q a) / hx_den H r.
(* rho_nodal**p is not NaN *)
Definition vertex_powers_ok (H : hbasis) (r : vec) (p : R) : bool :=
  forallb (fun v => match npow (r v) p with Some _ => true | None => false end) (seq 0 (hn H)).
Definition comb (a : R) (u : vec) (b : R) (w : vec) : vec := fun i => a * u i + b * w i.
(* 858-862: the scales of the two parts *)
Definition scales (hx avg : list R) : R * R :=
  if Nat.ltb 1 (List.length hx) then (Rmax (rmean (map Rabs hx)) tiny, Rmax (rmean (map Rabs avg)) tiny) else (1, 1).

(* lambda_all, 780-894; [Ts] are the temperatures, [nc] the columns of u_dofs.  The
   adjoint systems are solved with the prescribed temperatures as boundary values *)
Definition adjoint_fields (F : hfem) (p : R) (sys : hsystem) (Ts : list vec) (nc : nat) : res (list vec) :=
  let tk := hf_task F in
  let H := ht_H tk in
  let solve f := solve_heat (hf_sol F) (hf_slvm F) (sy_K sys) f (ht_nodes tk) (values_list (ht_values tk)) nc in
  match ht_obj tk with
  | Compliance => Ok (map (fun T i => -2 * T i) Ts)                                  (* 789 *)
  | AveragedTemp => solve (fun _ => 1)                                               (* 880-889 *)
  | HeatExchange =>
    match sy_nodal sys with
    | None => Err RuntimeError
    | Some r =>
      if Rleb (hx_den H r) tiny16 then Ok (map (fun _ _ => 0) Ts) else               (* 803-808 *)
      let! Tenv := full_arg (hn H) (ht_env tk) in
      let! h := full_arg (hn H) (ht_coef tk) in
      if negb (vertex_powers_ok H r p) then Err NotModelled else
      let! Ls := solve (hx_rhs H r Tenv h p (hf_q F)) in                             (* 835-843 *)
      if Reqb (ht_weight tk) 0 then Ok Ls else
      let! Ws := solve (fun _ => 1) in                                               (* 848-857 *)
      let (hs, as_) := scales (map (fun T => heat_exchange_objective H T r Tenv h) Ts) (map (fun T => sum (hn H) T) Ts) in
      Ok (zipwith (fun L W => comb (/ hs) L (ht_weight tk / as_) W) Ls Ws)           (* 858-874 *)
    end
  end.
(* objectives_multi_load with the adjoint it stores: (values, temperatures, lambda_all).
   The adjoint solves come after the values; an exception in either leaves lambda_all
   as it was *)
Definition objective_call (F : hfem) (p : R) (rho : list R) : res (list R * list vec * list vec) :=
  let! (Js, Ts) := objectives_multi_load F p rho in
  let! sys := heat_system F p rho in
  let! nc := n_tasks (hf_task F) in
  let! Ls := adjoint_fields F p sys Ts nc in
  Ok (Js, Ts, Ls).

(* _heat_exchange_grad_density_ and _avg_temp_grad_density_ on one element, 325-339, 529-533 *)
Definition grad_density (H : hbasis) (T L : vec) (e : nat) : R :=
  sum (fb_nq (hb_B H)) (fun q => vdot3 (gradv H T e q) (gradv H L e q) * fb_dx (hb_B H) e q).
(* energy_multi_load, 897-926; [lam] is self.lambda_all.  The densities have one entry
   per element.  A lambda_all with fewer columns than u_dofs is an IndexError *)
Definition energy_multi_load (F : hfem) (lam : option (list vec)) (p : R) (rho : list R) (Ts : list vec) : res (list (list R)) :=
  let tk := hf_task F in
  let H := ht_H tk in
  let els := seq 0 (fb_ne (hb_B H)) in
  match ht_obj tk with
  | Compliance =>
    let! ks := moduli (hf_interp F) (ht_k tk) (kmin F) p rho in
    Ok (map (fun T => map (heat_energy H (fun e => nth e ks 0) T) els) Ts)
  | _ =>
    match lam with
    | None => Err RuntimeError
    | Some Ls =>
      if Nat.ltb (List.length Ls) (List.length Ts) then Err IndexError else
      Ok (zipwith (fun T L => map (grad_density H T L) els) Ts Ls)
    end
  end.

(* a sequence of calls on one FEM object, which is lambda_all = None when new (701);
   what each call returned *)
Inductive hcall := ObjectiveOf (p : R) (rho : list R) | EnergyOf (p : R) (rho : list R) (Ts : list vec).
Inductive houtcome := Objective (r : res (list R * list vec)) | Energy (r : res (list (list R))).
Definition hcall_step (F : hfem) (lam : option (list vec)) (c : hcall) : option (list vec) * houtcome :=
  match c with
  | ObjectiveOf p rho =>
    match objective_call F p rho with
    | Ok (Js, Ts, Ls) => (Some Ls, Objective (Ok (Js, Ts)))
    | Err e => (lam, Objective (Err e))
    end
  | EnergyOf p rho Ts => (lam, Energy (energy_multi_load F lam p rho Ts))
  end.
Fixpoint hcalls (F : hfem) (lam : option (list vec)) (cs : list hcall) : option (list vec) * list houtcome :=
  match cs with
  | [] => (lam, [])
  | c :: cs => let (l1, o) := hcall_step F lam c in let (l2, os) := hcalls F l1 cs in (l2, o :: os)
  end.
