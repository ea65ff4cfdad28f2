(* Model of whole optimisation runs with the default filter type: the choice of the filter
   (common_density.py:681-703), the schedules (:643-679), the initialisation (:711-918),
   the driver (:845-1243) and the iteration (:1013-1157) with HelmholtzFilterNodal, for
   OC_Optimizer and LogMOC_Optimizer on elastic and heat tasks.  Composed of Config_model,
   Driver_model, Run_model, LRun_model and HzIter_model. *)
From Verif Require Import Base OC_model LogMOC_model Filter_model Mesh_model Fea_model Iter_model HeatIter_model LMIter_model HzIter_model Run_model LRun_model.
From Verif Require Sched_model Config_model Driver_model.
Import Config_model.
Open Scope string_scope.
Open Scope R_scope.
Open Scope list_scope.

Inductive fkind := SpatialKind | NodalKind.
(* parameterize, common_density.py:681-703: the comparisons of cfg.filter_type.  Building
   the filter itself does not fail (Filter_model, Helmholtz_model). *)
Definition parameterize (c : cfgobj) : res fkind :=
  match fget c "filter_type" with
  | None => Err AttributeError
  | Some (FPlain (PStr s)) =>
      if String.eqb s "spacial" then Ok SpatialKind else if String.eqb s "helmholtz" then Ok NodalKind else Err ValueError
  | Some _ => Err ValueError
  end.
(* what Run_model and LRun_model hand over as the filter when a run starts: of it only
   the initial radius (initialize_params, 747-843) is used here *)
Definition radius_only : sfilter := mkSF [] None 0 None.
Definition hz_start (f : hfilter) (rho : list R) (r : sfilter) : hstate :=
  mkHSt rho (hz_update (sf_radius r) f) 0 0 None None.
Definition hz_lm_start (L : lcfg) (f : hfilter) (rho : list R) (r : sfilter) : hlstate :=
  mkHLS rho (hz_update (sf_radius r) f) (lm_init (l_m L)) 0 0 None.

(* OC_Optimizer(cfg, task); parameterize(); then the calls [cs] of optimize() and
   optimize_steps(n), catching what each raises.  f: the filter's mesh, mask and solver.
   filter_type "spacial" is Run_model.oc_run and LRun_model.heat_oc_run. *)
Definition hz_oc_run (c : cfgobj) (t : anytask) (f : hfilter) (restart : option (Z * list R))
    (cs : list Driver_model.call) : res (@Driver_model.opt (cstate hstate) * list (option exn)) :=
  let! (dc, ic) := oc_new c in
  let! k := parameterize c in
  match k with
  | SpatialKind => Err NotModelled
  | NodalKind =>
    Ok (Driver_model.exec_all (cfg_body (hz_iterate t ic)) (fun s => h_change (cs_it s))
          (fun s => match h_kkt (cs_it s) with Some k => Driver_model.KVal k | None => Driver_model.KNonFinite end)
          (cfg_initialize (hz_start f) c ic (element_task t) radius_only restart) dc cs (Driver_model.opt_new []))
  end.
(* the same for LogMOC_Optimizer, as LRun_model.logmoc_run *)
Definition hz_logmoc_run (c : cfgobj) (t : anytask) (f : hfilter) (restart : option (Z * list R))
    (cs : list Driver_model.call) : res (@Driver_model.opt (cstate hlstate) * list (option exn)) :=
  let! (dc, L) := lm_new c in
  let! k := parameterize c in
  match k with
  | SpatialKind => Err NotModelled
  | NodalKind =>
    Ok (Driver_model.exec_all (cfg_body (hz_lm_iterate t L)) (fun s => hl_change (cs_it s)) (fun s => Driver_model.KVal (hl_kkt (cs_it s)))
          (cfg_initialize (hz_lm_start L f) c (loop_cfg L) (element_task t) radius_only restart) dc cs (Driver_model.opt_new []))
  end.
