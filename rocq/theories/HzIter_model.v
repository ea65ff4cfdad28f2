(* Model of one whole iteration of the density method with the nodal Helmholtz filter,
   which is the default filter (common_density.py:236-238, 681-703): the loop body
   common_density.py:1013-1157 with filters/helmholtz_filter_nodal.py, for OC and LogMOC
   on elastic and heat tasks. *)
From Verif Require Import Base Sums Material_model OC_model LogMOC_model Filter_model Helmholtz_model Mesh_model Fea_model Iter_model
  Heat_model HeatAdj_model HeatIter_model LMIter_model.
Open Scope R_scope.
Open Scope list_scope.

(* HelmholtzFilterNodal: mesh (with the matrices assembled on it and elements_volume),
   design_mask, radius, and what skfem.solve and skfem.condense do for a radius, a set
   of held nodes, their value and a right-hand side (Helmholtz_model.solves) *)
Record hfilter := mkHZ {
  hz_mesh : mesh; hz_mask : option (list bool); hz_radius : R;
  hz_solve : R -> (nat -> bool) -> R -> (nat -> R) -> (nat -> R) }.
(* helmholtz_filter_nodal.py:163-168 *)
Definition hz_update (r : R) (f : hfilter) : hfilter := mkHZ (hz_mesh f) (hz_mask f) r (hz_solve f).
(* helmholtz_filter_nodal.py:180-198; the vector has one entry per element *)
Definition hz_fwd (f : hfilter) (rho : list R) : list R :=
  let m := hz_mesh f in
  let node := element_to_node m (hz_mask f) 1 (fun e => nth e rho 0) in
  let x := hz_solve f (hz_radius f) (fixed_node m (hz_mask f)) 1 (Helmholtz_model.mv m (m_M m) node) in
  map (node_to_element m x) (seq 0 (n_els m)).
(* helmholtz_filter_nodal.py:200-233 *)
Definition hz_bwd (f : hfilter) (v : list R) : list R :=
  let m := hz_mesh f in
  let node := element_to_node m (hz_mask f) 0 (fun e => nth e v 0) in
  let x := hz_solve f (hz_radius f) (fun _ => false) 0 (Helmholtz_model.mv m (m_M m) node) in
  map (fun e => Rmin (node_to_element m x e) 0) (seq 0 (n_els m)).

(* common_density.py:1039-1041 *)
Definition hz_at (v : ivals) (f : hfilter) : hfilter :=
  if Reqb (v_radius v) (hz_radius f) then f else hz_update (v_radius v) f.
(* 1074-1114: the loop over load cases accumulates filter.gradient, then the mean over
   the cases and the optional filtering of the sensitivities *)
Definition hz_sum (f : hfilter) (n : nat) (gs : list (list R)) : list R :=
  fold_left (fun acc g => vadd_list acc (hz_bwd f g)) gs (repeat 0 n).
Definition hz_sensitivity (f : hfilter) (c : icfg) (n nt : nat) (gs : list (list R)) : list R :=
  let g := map (fun x => x / INR nt) (hz_sum f n gs) in
  if i_sens_filter c then hz_fwd f g else g.
(* 1039-1117 on an elastic task, as Iter_model.evaluate *)
Definition hz_evaluate (pb : problem) (c : icfg) (v : ivals) (f : hfilter) (rho : list R) : res eval :=
  let B := pb_basis pb in
  let eta := c_beta_eta (i_oc c) in
  let rf := hz_fwd f rho in
  let rp := map (fun x => heaviside_projection x (v_beta v) eta) rf in
  let! El := moduli (i_interp c) (pb_E0 pb) (Emin_of pb c) (v_p v) rp in
  let E := fun e => nth e El 0 in
  let! (cs, us) := objectives (fb_n B) (pb_slv pb) (pb_slvm pb) (stiffness B (pb_nu pb) E) (pb_D pb) (pb_loads pb) (v_scale v) in
  let energy := map (fun u => strain_energy B (pb_nu pb) E u) us in
  let gs := map (grad_filtered (i_interp c) (pb_E0 pb) (Emin_of pb c) (v_p v) (v_beta v) eta rf rp) energy in
  Ok (mkEval rf rp (rsum cs / INR (List.length cs)) energy (hz_sensitivity f c (List.length rho) (List.length (pb_loads pb)) gs)).
(* 1039-1117 on a heat task, as HeatIter_model.heat_evaluate *)
Definition hz_heat_evaluate (P : hproblem) (c : icfg) (v : ivals) (f : hfilter) (rho : list R) : res eval :=
  let F := hp_F P in
  let eta := c_beta_eta (i_oc c) in
  let rf := hz_fwd f rho in
  let rp := map (fun x => heaviside_projection x (v_beta v) eta) rf in
  let! nt := n_tasks (hf_task F) in
  if Nat.eqb nt 0 then Err NotModelled else
  let! (Js, Ts, Ls) := objective_call F (v_p v) rp in
  let! E := energy_multi_load F (Some Ls) (v_p v) rp Ts in
  let! G := heat_sensitivity F (v_p v) rp Ts in
  let gs := map (fun g => zipwith (fun d x => d * heaviside_projection_derivative x (v_beta v) eta) g rf) G in
  Ok (mkEval rf rp (rsum Js / INR (List.length Js)) (map (fun l e => nth e l 0) E) (hz_sensitivity f c (List.length rho) nt gs)).
(* the analysis of one iteration; the radius of the filter is updated first *)
Definition hz_analyse (t : anytask) (c : icfg) (v : ivals) (f : hfilter) (rho : list R) : res (hfilter * eval) :=
  let f := hz_at v f in
  let! ev := match t with Elastic pb => hz_evaluate pb c v f rho | HeatTask P => hz_heat_evaluate P c v f rho end in
  Ok (f, ev).

(* ---- OC ---- *)
Record hstate := mkHSt {
  h_rho : list R; h_filter : hfilter; h_running : R; h_change : R; h_kkt : option R; h_eval : option eval }.
(* 1116-1136 *)
Definition hz_oc_args (pb : problem) (v : ivals) (iter : Z) (rho : list R) (f : hfilter) (ev : eval) : oc_args :=
  let design := d_design (pb_dom pb) in
  let vols := gather (pb_volumes pb) design in
  mkArgs iter rho design (hz_fwd f) (gather (ev_dC ev) design) (v_move v) (v_eta v) (v_beta v)
    (v_percentile v) vols (rsum vols) (v_vol_frac v).
(* 1116-1157, as Iter_model.advance.  A NaN density is not modelled. *)
Definition hz_advance (pb : problem) (c : icfg) (v : ivals) (iter : Z) (s : hstate) (f : hfilter) (ev : eval) : res hstate :=
  let design := d_design (pb_dom pb) in
  let rho := h_rho s in
  match rho_update (i_oc c) (h_running s) (hz_oc_args pb v iter rho f ev) with
  | None => Err NotModelled
  | Some r =>
    match r_rho r with
    | None => Err NotModelled
    | Some new =>
      let rho' := pin (scatter rho design new) (pins pb c) in
      Ok (mkHSt rho' f (r_running r)
            (np_max (map Rabs (zipwith Rminus (gather rho' design) (gather rho design)))) (r_kkt r) (Some ev))
    end
  end.
(* 1013-1157 *)
Definition hz_iterate (t : anytask) (c : icfg) (v : ivals) (iter : Z) (s : hstate) : res hstate :=
  let! (f, ev) := hz_analyse t c v (h_filter s) (h_rho s) in
  hz_advance (element_task t) c v iter s f ev.

(* ---- LogMOC ---- *)
Record hlstate := mkHLS {
  hl_rho : list R; hl_filter : hfilter; hl_opt : lm_state; hl_change : R; hl_kkt : R; hl_eval : option eval }.
Definition hz_lm_args (pb : problem) (v : ivals) (iter : Z) (rho : list R) (f : hfilter) (ev : eval) : lm_args :=
  let design := d_design (pb_dom pb) in
  let vols := gather (pb_volumes pb) design in
  mkLA iter design (gather rho design) (ev_filtered ev) (ev_projected ev) (gather (ev_dC ev) design)
    (hz_fwd f) (hz_bwd f) (v_move v) (v_eta v) (v_beta v) (v_percentile v) vols (rsum vols) (v_vol_frac v).
Definition hz_lm_advance (pb : problem) (L : lcfg) (v : ivals) (iter : Z) (s : hlstate) (f : hfilter) (ev : eval) : res hlstate :=
  let design := d_design (pb_dom pb) in
  let rho := hl_rho s in
  let! o := lm_rho_update (l_m L) (hl_opt s) (hz_lm_args pb v iter rho f ev) in
  let rho' := pin (scatter rho design (lo_rho o)) (pins pb (loop_cfg L)) in
  Ok (mkHLS rho' f (lo_state o)
        (np_max (map Rabs (zipwith Rminus (gather rho' design) (gather rho design)))) (lo_kkt o) (Some ev)).
Definition hz_lm_iterate (t : anytask) (L : lcfg) (v : ivals) (iter : Z) (s : hlstate) : res hlstate :=
  let! (f, ev) := hz_analyse t (loop_cfg L) v (hl_filter s) (hl_rho s) in
  hz_lm_advance (element_task t) L v iter s f ev.
