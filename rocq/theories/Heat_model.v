(* Model of heat conduction: fea/solver_heat.py, mesh/task_heat.py.

   Scalar P1 fields: dof k is mesh vertex k.  As in Fea_model, scikit-fem is
   abstracted to what the forms see: per element and quadrature point a weight
   and, for every basis function, its gradient (row 0 of the tensor) and its
   value; per Robin surface the same for its facet quadrature points. *)
From Verif Require Import Base Sums Material_model OC_model Mesh_model Fea_model Iter_model.
Open Scope R_scope.
Open Scope list_scope.

Record hbasis := mkHB {
  hb_B : fembasis;
  hb_val : nat -> nat -> nat -> R;       (* e q k -> value of basis function k *)
  hb_t : list (list nat) }.              (* mesh.t: one row per local node, one column per element *)
(* FacetBasis of one Robin surface, its points numbered through *)
Record surface := mkSurf { sf_np : nat; sf_dx : nat -> R; sf_val : nat -> nat -> R }.
(* a Python float, an int, or a list of floats *)
Inductive farg := Flt (x : R) | Int (x : R) | FLst (l : list R).

Definition hn (H : hbasis) : nat := fb_n (hb_B H).
(* basis.interpolate(u) and its gradient *)
Definition value_of (H : hbasis) (u : vec) (e q : nat) : R := sum (hn H) (fun k => u k * hb_val H e q k).
Definition gradv (H : hbasis) (u : vec) (e q : nat) : tensor := grad_of (hb_B H) u e q.
(* np.sqrt(np.sum(grad_rho**2, axis=0)) *)
Definition gnorm (g : tensor) : R := sqrt (vdot3 g g).
Definition sval_of (n : nat) (S : surface) (u : vec) (q : nat) : R := sum n (fun k => u k * sf_val S q k).

(* sums over the mesh and over a surface: asm / elemental().sum() *)
Definition integral (H : hbasis) (F : nat -> nat -> R) : R :=
  sum (fb_ne (hb_B H)) (fun e => sum (fb_nq (hb_B H)) (fun q => F e q * fb_dx (hb_B H) e q)).
Definition surf_integral (S : surface) (F : nat -> R) : R := sum (sf_np S) (fun q => F q * sf_dx S q).

(* ---- Robin surfaces, task_heat.py:57-135 ---- *)
(* robin_form, robin_load: rho_field is None whatever rho is (the interpolation in
   line 102 is commented out), so h_eff is h *)
Definition robin_mat (S : surface) (h : R) : mat := fun a b => surf_integral S (fun q => h * sf_val S q b * sf_val S q a).
Definition robin_vec (S : surface) (h Tenv : R) : vec := fun a => surf_integral S (fun q => h * Tenv * sf_val S q a).
(* 70-75: len() of an int or of None raises *)
Definition per_facet (n : nat) (a : option farg) : res (list R) :=
  match a with
  | Some (Flt x) => Ok (repeat x n)
  | Some (FLst l) => Ok l
  | _ => Err TypeError
  end.
Definition assemble_surface_robin (Ss : list surface) (coef env : option farg) (rho : option (list R))
  : res (list mat * list vec) :=
  let! hs := per_facet (List.length Ss) coef in
  if negb (Nat.eqb (List.length Ss) (List.length hs)) then Err ValueError else
  let! Ts := per_facet (List.length Ss) env in
  if negb (Nat.eqb (List.length hs) (List.length Ts)) then Err ValueError else
  Ok (map (fun x => robin_mat (fst x) (fst (snd x))) (combine Ss (combine hs Ts)),
      map (fun x => robin_vec (fst x) (fst (snd x)) (snd (snd x))) (combine Ss (combine hs Ts))).

(* ---- nodal densities, solver_heat.py:600-613 (also 728-737, task_heat.py:88-95) ---- *)
(* np.add.at(zeros, idx, vals) *)
Definition add_at (idx : list nat) (vals : list R) : vec :=
  fun v => rsum (zipwith (fun i x => if Nat.eqb i v then x else 0) idx vals).
(* np.repeat(rho, k) *)
Definition np_repeat (rho : list R) (k : nat) : list R := List.concat (map (fun x => repeat x k) rho).
Definition node_count (t : list (list nat)) : vec := add_at (List.concat t) (map (fun _ => 1) (List.concat t)).
(* t.ravel() is row-major: all first local nodes, then all second ones, ... *)
Definition nodal_average (t : list (list nat)) (rho : list R) : vec := fun v =>
  add_at (List.concat t) (np_repeat rho (List.length t)) v / Rmax (node_count t v) 1.

(* ---- the virtual Robin term, solver_heat.py:555-576 ---- *)
Definition pw (x p : R) : R := match npow x p with Some y => y | None => 0 end.
(* rho**p (1-rho)**q |grad rho| *)
Definition layer (H : hbasis) (r : vec) (p : R) (q' : nat) (e q : nat) : R :=
  pw (value_of H r e q) p * (1 - value_of H r e q) ^ q' * gnorm (gradv H r e q).
(* no NaN: every power is defined *)
Definition layer_ok (H : hbasis) (r : vec) (p : R) : bool :=
  forallb (fun e => forallb (fun q => match npow (value_of H r e q) p with Some _ => true | None => false end)
    (seq 0 (fb_nq (hb_B H)))) (seq 0 (fb_ne (hb_B H))).
(* a scalar or list times an array of shape (elements, points): a list of length
   points varies over the points; with one point per element the products for all
   its entries are added up by the integration; other lengths do not broadcast.
   Result: what is added up at point q *)
Definition bcast (nq : nat) (a : farg) : res (nat -> list R) :=
  match a with
  | Flt x | Int x | FLst [x] => Ok (fun _ => [x])
  | FLst l => if Nat.eqb nq 1 then Ok (fun _ => l)
              else if Nat.eqb (List.length l) nq then Ok (fun q => [nth q l 0]) else Err ValueError
  end.
Definition bprod (a b : list R) : list R :=
  match a, b with
  | [x], _ => map (fun y => x * y) b
  | _, [y] => map (fun x => x * y) a
  | _, _ => zipwith Rmult a b
  end.
(* the factors h and h T_env at point q *)
Definition virtual_factors (nq : nat) (coef env : farg) : res ((nat -> R) * (nat -> R)) :=
  let! hs := bcast nq coef in
  let! Ts := bcast nq env in
  Ok (fun q => rsum (hs q), fun q => rsum (bprod (hs q) (Ts q))).
Definition virtual_mat (H : hbasis) (lay : nat -> nat -> R) (hq : nat -> R) : mat := fun a b =>
  integral H (fun e q => hq q * lay e q * hb_val H e q b * hb_val H e q a).
Definition virtual_vec (H : hbasis) (lay : nat -> nat -> R) (hTq : nat -> R) : vec := fun a =>
  integral H (fun e q => hTq q * lay e q * hb_val H e q a).

(* ---- Dirichlet conditions and solve, solver_heat.py:133-195 ---- *)
(* skfem.enforce(K, f, D=D, x=np.full(N, val))[1] *)
Definition enforceV (D : list nat) (val : R) (f : vec) : vec := fun i => if mem i D then val else f i.
Inductive hsolver := HAuto | HSpsolve | HPetsc | HPetscDirect | HOther.
(* [slvm] is the LU or PETSc solve; u_all[:, :] = u_sol needs as many columns as
   u_all has, or one column, which is then copied to all *)
Definition solve_heat (sol : hsolver) (slvm : mat -> list vec -> list vec) (K : mat) (emit : vec)
    (Ds : list (list nat)) (vals : list R) (ncols : nat) : res (list vec) :=
  match sol with HOther => Err NotImplementedError | _ =>
    match vals with
    | [] => Ok (repeat (fun _ => 0) ncols)                                            (* 153-156 *)
    | _ =>
      match Ds with
      | [] => Err IndexError                                                          (* 158 *)
      | D0 :: _ =>
        let us := slvm (enforceK D0 K) (zipwith (fun D v => enforceV D v emit) Ds vals) in
        if Nat.eqb (List.length us) ncols then Ok us
        else match us with [u] => Ok (repeat u ncols) | _ => Err ValueError end      (* 194 *)
      end
    end
  end.

(* ---- the task ---- *)
Inductive hobjective := Compliance | HeatExchange | AveragedTemp.
Record htask := mkHTask {
  ht_H : hbasis; ht_nodes : list (list nat); ht_values : farg;
  ht_surfaces : option (list surface);                   (* robin_facets_ids *)
  ht_coef : option farg; ht_env : option farg; ht_design_robin : option bool;
  ht_k : R; ht_bil : list mat; ht_lin : list vec;        (* robin_bilinear, robin_linear *)
  ht_obj : hobjective; ht_weight : R }.
(* task_heat.py:164-232 with task_common.py:105-122, 322-334: what is checked of the
   temperature arguments, and the Robin matrices.  The element sets are in
   Mesh_model. *)
Definition from_facets (H : hbasis) (nodes : nodes_arg) (values : farg) (Ss : option (list surface))
    (coef env : option farg) (dr : option bool) (k : R) (obj : hobjective) (w : R) : res htask :=
  match nodes with
  | Arr _ => Err AssertionError                          (* isinstance(dirichlet_dir, str) *)
  | Lst ns =>
    let! _ := match values with
      | Int _ => Err AssertionError
      | Flt _ => Ok tt
      | FLst l => if Nat.eqb (List.length ns) (List.length l) then Ok tt else Err AssertionError
      end in
    match Ss with
    | None => Ok (mkHTask H ns values None None None None k [] [] obj w)
    | Some [] => Err ValueError                          (* np.concatenate of nothing *)
    | Some Ss' =>
      let! (bil, lin) := assemble_surface_robin Ss' coef env None in
      Ok (mkHTask H ns values Ss coef env dr k bil lin obj w)
    end
  end.
(* task_heat.py:158-162 *)
Definition n_tasks (tk : htask) : res nat :=
  match ht_values tk with Flt _ => Ok 1%nat | FLst l => Ok (List.length l) | Int _ => Err TypeError end.
(* task_heat.py:145-154 *)
Definition update_robin_bc (tk : htask) (rho : list R) : res htask :=
  match ht_surfaces tk with
  | None => Err TypeError
  | Some Ss =>
    let! (bil, lin) := assemble_surface_robin Ss (ht_coef tk) (ht_env tk) (Some rho) in
    Ok (mkHTask (ht_H tk) (ht_nodes tk) (ht_values tk) (ht_surfaces tk) (ht_coef tk) (ht_env tk)
          (ht_design_robin tk) (ht_k tk) bil lin (ht_obj tk) (ht_weight tk))
  end.

(* the FEM object: task, E_min_coeff, interpolation, exponent q, solver *)
Record hfem := mkHFem {
  hf_task : htask; hf_coeff : R; hf_interp : interp; hf_q : nat; hf_sol : hsolver;
  hf_slvm : mat -> list vec -> list vec }.
Definition kmin (F : hfem) : R := ht_k (hf_task F) * hf_coeff F.        (* 690-691 *)

Definition madd (A B : mat) : mat := fun i j => A i j + B i j.
Definition vadd (a b : vec) : vec := fun i => a i + b i.
(* what the state equation is made of *)
Record hsystem := mkSys { sy_K : mat; sy_emit : vec; sy_nodal : option vec }.
(* 719-744 and 216-237: virtual terms, conduction, sums *)
Definition heat_system (F : hfem) (p : R) (rho : list R) : res hsystem :=
  let tk := hf_task F in
  let H := ht_H tk in
  let! (bil, lin, r) :=
    match ht_coef tk with
    | None => Ok (ht_bil tk, ht_lin tk, None)
    | Some coef =>
      match ht_env tk with
      | None => Err TypeError
      | Some env =>
        let! (hq, hTq) := virtual_factors (fb_nq (hb_B H)) coef env in
        let r := nodal_average (hb_t H) rho in
        if layer_ok H r p then
          let lay := layer H r p (hf_q F) in
          Ok (ht_bil tk ++ [virtual_mat H lay hq], ht_lin tk ++ [virtual_vec H lay hTq], Some r)
        else Err NotModelled
      end
    end in
  let! ks := moduli (hf_interp F) (ht_k tk) (kmin F) p rho in
  Ok (mkSys (fold_left madd bil (conduction (hb_B H) (fun e => nth e ks 0)))
            (fold_left vadd lin (fun _ => 0)) r).

(* dirichlet_values_list, 709-711 *)
Definition values_list (a : farg) : list R := match a with Flt x | Int x => [x] | FLst l => l end.

(* ---- objectives ---- *)
(* 384-426: J_num / J_den with the plain coefficient h *)
Definition hx_num (H : hbasis) (T r : vec) (Tenv h : R) : R :=
  integral H (fun e q => - Tenv * h * (value_of H T e q - Tenv) * gnorm (gradv H r e q)).
Definition hx_den (H : hbasis) (r : vec) : R := integral H (fun e q => gnorm (gradv H r e q)).
Definition tiny16 : R := 1 / 10 ^ 16.                                   (* 1e-16 *)
Definition heat_exchange_objective (H : hbasis) (T r : vec) (Tenv h : R) : R :=
  if Rleb (hx_den H r) tiny16 then 0 else hx_num H T r Tenv h / hx_den H r.
Definition rmean (l : list R) : R := rsum l / INR (List.length l).
(* 830-850: weighting with the averaged temperature *)
Definition weighted (w : R) (hx avg : list R) : list R :=
  if Reqb w 0 then hx else
  if Nat.ltb 1 (List.length hx) then
    let hs := Rmax (rmean (map Rabs hx)) tiny in
    let as_ := Rmax (rmean (map Rabs avg)) tiny in
    zipwith (fun a b => a / hs + w * (b / as_)) hx avg
  else zipwith (fun a b => a + w * b) hx avg.
(* np.full(N, x) of a list needs one entry or N of them *)
Definition full_arg (n : nat) (a : option farg) : res R :=
  match a with
  | Some (Flt x) | Some (Int x) | Some (FLst [x]) => Ok x
  | Some (FLst l) => if Nat.eqb (List.length l) n then Err NotModelled else Err ValueError
  | None => Err TypeError
  end.
(* objectives_multi_load, 700-890: (values, temperatures).  The adjoint field
   lambda_all it stores is read by energy_multi_load only; see HeatAdj_model.
   The updated task replaces the old one after the matrices were taken from it; by
   C72_design_robin_has_no_effect it is the same task. *)
Definition objectives_multi_load (F : hfem) (p : R) (rho : list R) : res (list R * list vec) :=
  let tk := hf_task F in
  let H := ht_H tk in
  let! nc := n_tasks tk in
  let! _ := match ht_design_robin tk with Some true => update_robin_bc tk rho | _ => Ok tk end in   (* 746-747 *)
  let! sys := heat_system F p rho in
  let! Ts := solve_heat (hf_sol F) (hf_slvm F) (sy_K sys) (sy_emit sys) (ht_nodes tk) (values_list (ht_values tk)) nc in
  match ht_obj tk with
  | Compliance => Ok (map (fun T => dot (hn H) T (mv (hn H) (sy_K sys) T)) Ts, Ts)
  | AveragedTemp => Ok (map (fun T => sum (hn H) T) Ts, Ts)
  | HeatExchange =>
    match sy_nodal sys with
    | None => Err RuntimeError
    | Some r =>
      if Rleb (hx_den H r) tiny16 then Ok (map (fun _ => 0) Ts, Ts) else
      let! Tenv := full_arg (hn H) (ht_env tk) in
      let! h := full_arg (hn H) (ht_coef tk) in
      Ok (weighted (ht_weight tk) (map (fun T => heat_exchange_objective H T r Tenv h) Ts)
            (map (fun T => sum (hn H) T) Ts), Ts)
    end
  end.

(* ---- sensitivities ---- *)
(* 240-284: element energies 1/2 k |grad T|^2 *)
Definition heat_energy (H : hbasis) (k : nat -> R) (T : vec) (e : nat) : R :=
  sum (fb_nq (hb_B H)) (fun q => / 2 * k e * vdot3 (gradv H T e q) (gradv H T e q) * fb_dx (hb_B H) e q).
(* 579-598 *)
Definition explicit_nodal (H : hbasis) (r T : vec) (Tenv h p : R) (q' : nat) : vec := fun v =>
  integral H (fun e q =>
    let x := value_of H r e q in
    let g := gradv H r e q in
    let a := pw x p * (1 - x) ^ q' in
    let da := p * pw x (p - 1) * (1 - x) ^ q' - INR q' * pw x p * (1 - x) ^ (q' - 1) in
    let phi := 2 * Tenv * value_of H T e q - value_of H T e q * value_of H T e q in
    h * (da * gnorm g * phi * hb_val H e q v +
         a * phi * (vdot3 g (fb_grad (hb_B H) e q v) / Rmax (gnorm g) tiny))).
(* 616-625 *)
Definition to_elements (t : list (list nat)) (g : vec) (e : nat) : R :=
  rsum (map (fun row => g (nth e row 0%nat) / Rmax (node_count t (nth e row 0%nat)) 1) t).
(* compliance_sensitivity_multi_load, 923-980: one list per load *)
Definition heat_sensitivity (F : hfem) (p : R) (rho : list R) (Ts : list vec) : res (list (list R)) :=
  let tk := hf_task F in
  let H := ht_H tk in
  let! ks := moduli (hf_interp F) (ht_k tk) (kmin F) p rho in
  let base := map (fun T => map (fun e => dC_drho_simp (nth e rho 0) (heat_energy H (fun e' => nth e' ks 0) T e)
                                   (ht_k tk) (kmin F) p) (seq 0 (List.length rho))) Ts in
  match ht_obj tk, ht_coef tk with
  | Compliance, Some coef =>
    match ht_env tk with
    | None => Err TypeError
    | Some env =>
      let r := nodal_average (hb_t H) rho in
      Ok (zipwith (fun T g =>
            zipwith Rplus g (map (fun e =>
              rsum (zipwith (fun h Tenv => to_elements (hb_t H) (explicit_nodal H r T Tenv h p (hf_q F)) e)
                      (values_list coef) (values_list env))) (seq 0 (List.length rho)))) Ts base)
    end
  | _, _ => Ok base
  end.
