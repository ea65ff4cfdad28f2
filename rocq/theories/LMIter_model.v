(* Model of one whole iteration of the density method with the LogMOC update, on an
   elastic or a heat task with the spatial filter: core/optimizers/common_density.py:
   1013-1157 calling core/optimizers/logmoc.py:90-258. *)
From Verif Require Import Base Sums Material_model OC_model LogMOC_model Filter_model Mesh_model Fea_model Iter_model Heat_model HeatAdj_model HeatIter_model.
Open Scope R_scope.
Open Scope list_scope.

(* one LogMOC_Config object: the fields of the update and those the loop reads
   (logmoc.py:13-33, common_density.py:105-330) *)
Record lcfg := mkLC {
  l_m : lm_cfg; l_Emin_coeff : R; l_interp : interp; l_sens_filter : bool; l_design_dirichlet : bool }.
(* the loop reads rho_min, rho_max, beta_eta and the flags; the OC-only settings are
   not read by LogMOC and are left at 0 *)
Definition loop_cfg (L : lcfg) : icfg :=
  mkICfg (mkOCCfg (m_rho_min (l_m L)) (m_rho_max (l_m L)) (m_beta_eta (l_m L)) 0 0 0 0 0)
         (l_Emin_coeff L) (l_interp L) (l_sens_filter L) (l_design_dirichlet L).

(* the two kinds of task *)
Inductive anytask := Elastic (pb : problem) | HeatTask (P : hproblem).
Definition element_task (t : anytask) : problem :=
  match t with Elastic pb => pb | HeatTask P => plain P end.
(* 1039-1114 *)
Definition analyse (t : anytask) (L : lcfg) (v : ivals) (f : sfilter) (rho : list R) : res (sfilter * eval) :=
  match t with
  | Elastic pb => evaluate pb (loop_cfg L) v f rho
  | HeatTask P => heat_evaluate P (loop_cfg L) v f rho
  end.

(* filter.gradient as a function; after an analysis the filter has its weights and the
   vector has one entry per element, so it does not fail *)
Definition sf_grad (f : sfilter) (x : list R) : list R :=
  match sf_gradient f x with Ok y => y | Err _ => x end.

Record lstate := mkLS {
  ls_rho : list R; ls_filter : sfilter; ls_opt : lm_state;
  ls_change : R; ls_kkt : R; ls_eval : option eval }.

(* 1116-1136: the arguments of rho_update; self._state.rho_filtered is the filtered
   density of this iteration (1046) *)
Definition lm_args_of (pb : problem) (v : ivals) (iter : Z) (rho : list R) (f : sfilter) (ev : eval) : lm_args :=
  let design := d_design (pb_dom pb) in
  let vols := gather (pb_volumes pb) design in
  mkLA iter design (gather rho design) (ev_filtered ev) (ev_projected ev) (gather (ev_dC ev) design)
    (sf_map f) (sf_grad f) (v_move v) (v_eta v) (v_beta v) (v_percentile v) vols (rsum vols) (v_vol_frac v).
(* 1116-1157 *)
Definition lm_advance (pb : problem) (L : lcfg) (v : ivals) (iter : Z) (s : lstate) (f : sfilter) (ev : eval) : res lstate :=
  let design := d_design (pb_dom pb) in
  let rho := ls_rho s in
  let! o := lm_rho_update (l_m L) (ls_opt s) (lm_args_of pb v iter rho f ev) in
  let rho' := pin (scatter rho design (lo_rho o)) (pins pb (loop_cfg L)) in                  (* 1138-1142 *)
  Ok (mkLS rho' f (lo_state o)
        (np_max (map Rabs (zipwith Rminus (gather rho' design) (gather rho design))))        (* 1145-1149 *)
        (lo_kkt o) (Some ev)).
(* 1013-1157 *)
Definition lm_iterate (t : anytask) (L : lcfg) (v : ivals) (iter : Z) (s : lstate) : res lstate :=
  let! (f, ev) := analyse t L v (ls_filter s) (ls_rho s) in
  lm_advance (element_task t) L v iter s f ev.
Fixpoint lm_optimize (t : anytask) (L : lcfg) (sched : list (Z * ivals)) (s : lstate) : res (list lstate) :=
  match sched with
  | [] => Ok []
  | (i, v) :: r => let! s' := lm_iterate t L v i s in let! l := lm_optimize t L r s' in Ok (s' :: l)
  end.
(* a new LogMOC_Optimizer (logmoc.py:70-88) with densities rho *)
Definition lm_start (L : lcfg) (rho : list R) (f : sfilter) : lstate :=
  mkLS rho f (lm_init (l_m L)) 0 0 None.
