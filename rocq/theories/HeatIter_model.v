(* Model of one whole iteration of the density method with the OC update on a heat
   conduction task and the spatial filter: core/optimizers/common_density.py:1013-1157
   with fea/solver_heat.py in place of the elastic analysis. *)
From Verif Require Import Base Sums Material_model OC_model Filter_model Mesh_model Fea_model Iter_model Heat_model HeatAdj_model.
Open Scope R_scope.
Open Scope list_scope.

(* element sets and volumes of the task, and the FEM object the constructor builds
   from the task and the configuration (common_density.py:558-589) *)
Record hproblem := mkHP { hp_dom : domain; hp_volumes : list R; hp_F : hfem }.
(* oc_args_of, pins and advance read the element sets and the volumes of a problem
   only; the elastic part is empty *)
Definition element_data (d : domain) (vols : list R) : problem :=
  mkProb d (mkBasis 0 0 0 (fun _ _ => 0) (fun _ _ _ _ _ => 0)) 0 1 [] [] vols (fun _ b => b) (fun _ bs => bs).
Definition plain (P : hproblem) : problem := element_data (hp_dom P) (hp_volumes P).

(* 1039-1117.  The FEM object has compliance_sensitivity_multi_load, so its answer is
   used whatever the objective is (1070-1085); force_scale is not used by the heat
   analysis (solver_heat.py:709).  No load case at all (mean of nothing) is not
   modelled. *)
Definition heat_evaluate (P : hproblem) (c : icfg) (v : ivals) (f : sfilter) (rho : list R) : res (sfilter * eval) :=
  let F := hp_F P in
  let eta := c_beta_eta (i_oc c) in
  let f := if Reqb (v_radius v) (sf_radius f) then f else update_radius (v_radius v) f in      (* 1039-1041 *)
  let! (f, rf) := sf_forward f rho in                                                        (* 1046 *)
  let rp := map (fun x => heaviside_projection x (v_beta v) eta) rf in                        (* 1047-1049 *)
  let! nt := n_tasks (hf_task F) in
  if Nat.eqb nt 0 then Err NotModelled else
  let! (Js, Ts, Ls) := objective_call F (v_p v) rp in                                         (* 1058-1061 *)
  let! E := energy_multi_load F (Some Ls) (v_p v) rp Ts in                                    (* 1063-1066 *)
  let! G := heat_sensitivity F (v_p v) rp Ts in                                               (* 1070-1074 *)
  let gs := map (fun g => zipwith (fun d x => d * heaviside_projection_derivative x (v_beta v) eta) g rf) G in
  let! g := sum_gradients f (repeat 0 (List.length rho)) gs in                                (* 1075-1106 *)
  let g := map (fun x => x / INR nt) g in                                                     (* 1109 *)
  let ev g := mkEval rf rp (rsum Js / INR (List.length Js)) (map (fun l e => nth e l 0) E) g in
  if i_sens_filter c then
    let! (f, g) := sf_forward f g in Ok (f, ev g)                                             (* 1110-1114 *)
  else Ok (f, ev g).
(* 1013-1157 *)
Definition heat_iterate (P : hproblem) (c : icfg) (v : ivals) (iter : Z) (s : istate) : res istate :=
  let! (f, ev) := heat_evaluate P c v (s_filter s) (s_rho s) in
  advance (plain P) c v iter s f ev.
Fixpoint heat_run (P : hproblem) (c : icfg) (sched : list (Z * ivals)) (s : istate) : res (list istate) :=
  match sched with
  | [] => Ok []
  | (i, v) :: r => let! s' := heat_iterate P c v i s in let! l := heat_run P c r s' in Ok (s' :: l)
  end.
