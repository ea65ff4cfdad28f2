(* Model of whole optimisation runs from one configuration object, for LogMOC_Optimizer
   (core/optimizers/logmoc.py:13-88) on elastic and heat tasks and for OC_Optimizer on
   heat tasks, with the spatial filter: the schedules (common_density.py:643-679), the
   initialisation (:711-918), the driver (:845-1243) and the iteration (:1013-1157),
   composed of Config_model, Sched_model, Driver_model, Run_model, LMIter_model and
   HeatIter_model. *)
From Verif Require Import Base OC_model LogMOC_model Filter_model Mesh_model Fea_model Iter_model HeatIter_model LMIter_model Run_model.
From Verif Require Sched_model Config_model Driver_model.
Import Config_model.
Open Scope string_scope.
Open Scope R_scope.
Open Scope list_scope.

(* LogMOC_Config(): the fields a run reads, with their defaults: common_density.py:208-261,
   380-389 and logmoc.py:13-33.  eta stays the plain number of common_density.py:213. *)
Definition lm_defaults : cfgobj :=
  [ ("interpolation", FPlain (PStr "SIMP")); ("record_times", FPlain (PInt 20)); ("max_iters", FPlain (PInt 200));
    ("beta_eta", FPlain (PFloat (1/2))); ("eta", FPlain (PFloat (6/10)));
    ("p", fsched (Sched_model.cfg_step None (Some 1) (Some 3) (Some 3%Z) None));
    ("vol_frac", fsched (Sched_model.cfg_constant None (8/10)));
    ("beta", fsched (Sched_model.cfg_step_accelerating None (Some 1) (Some 2) (Some 3%Z) None (Some 2)));
    ("neumann_scale", fsched (Sched_model.cfg_constant_one (Some "neumann_scale")));
    ("filter_type", FPlain (PStr "helmholtz"));
    ("filter_radius", fsched (Sched_model.cfg_constant None (1/100)));
    ("E_min_coeff", FPlain (PFloat (1/1000))); ("rho_min", FPlain (PFloat (1/100))); ("rho_max", FPlain (PFloat 1));
    ("restart", FPlain (PBool false)); ("restart_from", FPlain (PInt (-1)));
    ("design_dirichlet", FPlain (PBool false)); ("sensitivity_filter", FPlain (PBool false));
    ("scaling", FPlain (PBool false)); ("check_convergence", FPlain (PBool false));
    ("tol_rho_change", FPlain (PFloat (2/10))); ("tol_kkt_residual", FPlain (PFloat (5/1000)));
    ("percentile", fsched Sched_model.cfg_none);
    ("move_limit", fsched (Sched_model.cfg_sawtooth_decay (Some "move_limit") (3/10) (1/10) 3 6));
    ("mu_p", FPlain (PFloat 5)); ("augmented_lagrangian_mu", FPlain (PFloat 0)); ("lambda_v", FPlain (PFloat (1/10)));
    ("lambda_decay", FPlain (PFloat (9/10))); ("lambda_lower", FPlain (PFloat (-10000000))); ("lambda_upper", FPlain (PFloat 10000000));
    ("lagrangian_clip", FPlain (PFloat 1)); ("lagrangian_percentile", FPlain (PFloat 95)); ("lagrangian_scale_floor", FPlain (PFloat (1/100000000)));
    ("normalize_volume_chain", FPlain (PBool false)); ("volume_chain_percentile", FPlain (PFloat 95));
    ("volume_chain_scale_floor", FPlain (PFloat (1/100000000))); ("volume_chain_gain", FPlain (PFloat 1));
    ("volume_chain_gain_under", FPlain PNone); ("dual_update", FPlain (PStr "ema"));
    ("filter_lagrangian", FPlain (PBool false)); ("center_lagrangian", FPlain (PBool false)); ("center_objective", FPlain (PBool false)) ].

(* logmoc.py:171-180: volume_chain_gain_under may be None *)
Definition field_gain_under (c : cfgobj) : res (option R) :=
  match fget c "volume_chain_gain_under" with Some (FPlain PNone) => Ok None | _ => let! r := field_real c "volume_chain_gain_under" in Ok (Some r) end.
(* logmoc.py:187: everything but "augmented" is the averaged update *)
Definition field_augmented (c : cfgobj) : res bool :=
  match fget c "dual_update" with Some (FPlain (PStr s)) => Ok (String.eqb s "augmented") | _ => Err NotModelled end.

(* LogMOC_Optimizer.__init__, logmoc.py:70-88 and common_density.py:531-589: nothing is
   checked; the values are read when they are used.  scaling=True is not modelled here
   (C54). *)
Definition lm_new (c : cfgobj) : res (Driver_model.dcfg * lcfg) :=
  let! sc := field_bool c "scaling" in
  if sc then Err NotModelled else
  let! k := field_interp c in
  let! m := field_int c "max_iters" in
  let! rt := field_int c "record_times" in
  let! cc := field_bool c "check_convergence" in
  let! tr := field_real c "tol_rho_change" in
  let! tk := field_real c "tol_kkt_residual" in
  let! rmin := field_real c "rho_min" in
  let! rmax := field_real c "rho_max" in
  let! be := field_real c "beta_eta" in
  let! mup := field_real c "mu_p" in
  let! amu := field_real c "augmented_lagrangian_mu" in
  let! l0 := field_real c "lambda_v" in
  let! dec := field_real c "lambda_decay" in
  let! ll := field_real c "lambda_lower" in
  let! lu := field_real c "lambda_upper" in
  let! cl := field_real c "lagrangian_clip" in
  let! lp := field_real c "lagrangian_percentile" in
  let! lf := field_real c "lagrangian_scale_floor" in
  let! nv := field_bool c "normalize_volume_chain" in
  let! vp := field_real c "volume_chain_percentile" in
  let! vf := field_real c "volume_chain_scale_floor" in
  let! vg := field_real c "volume_chain_gain" in
  let! gu := field_gain_under c in
  let! au := field_augmented c in
  let! fl := field_bool c "filter_lagrangian" in
  let! cl' := field_bool c "center_lagrangian" in
  let! co := field_bool c "center_objective" in
  let! em := field_real c "E_min_coeff" in
  let! sf := field_bool c "sensitivity_filter" in
  let! dd := field_bool c "design_dirichlet" in
  Ok (Driver_model.mkDC m rt cc tr tk,
      mkLC (mkLM rmin rmax be mup amu l0 dec ll lu cl lp lf nv vp vf vg gu au fl cl' co) em k sf dd).

(* ---- what OC and LogMOC share: common_density.py ---- *)
(* what the optimizer holds between iterations: its schedulers and its state *)
Record cstate (S : Type) := mkCS { cs_sched : Sched_model.collection; cs_it : S }.
Arguments mkCS {S}. Arguments cs_sched {S}. Arguments cs_it {S}.
(* 1013-1157: the scheduled values of this iteration, then the iteration with them.
   Simplification: the state an exception leaves behind is the one before the iteration. *)
Definition cfg_body {S} (it : ivals -> Z -> S -> res S) (i : Z) (s : cstate S) : cstate S * option exn :=
  match values_at (cs_sched s) i with
  | Err e => (s, Some e)
  | Ok v => match it v i (cs_it s) with
            | Err e => (s, Some e)
            | Ok s' => (mkCS (cs_sched s) s', None)
            end
  end.
(* 861-918 through init_schedulers, initialize_params and filter.update_radius, as
   Run_model.oc_initialize; [start] is the optimizer's state for these densities and
   filter, [restart] the iteration and the design densities of the checkpoint found *)
Definition cfg_initialize {S} (start : list R -> sfilter -> S) (c : cfgobj) (ic : icfg) (pb : problem) (f : sfilter)
    (restart : option (Z * list R)) : res (cstate S * Z) :=
  let! l := init_schedulers c [] in
  let! m := field_int c "max_iters" in
  let! _ := export_all l (Driver_model.zrange 1 (m + 1)) in
  let! v0 := initial_fraction c in
  let! rho := initialize_density pb ic v0 (option_map snd restart) in
  let! r := initial_radius c in
  Ok (mkCS l (start rho (update_radius r f)), match restart with Some (j, _) => (j + 1)%Z | None => 1%Z end).

(* LogMOC_Optimizer(cfg, task); parameterize(); then the calls [cs] of optimize() and
   optimize_steps(n), catching what each raises.  self.kkt_residual is always a number
   (logmoc.py:227-236). *)
Definition logmoc_run (c : cfgobj) (t : anytask) (f : sfilter) (restart : option (Z * list R))
    (cs : list Driver_model.call) : res (@Driver_model.opt (cstate lstate) * list (option exn)) :=
  let! (dc, L) := lm_new c in
  Ok (Driver_model.exec_all (cfg_body (lm_iterate t L)) (fun s => ls_change (cs_it s)) (fun s => Driver_model.KVal (ls_kkt (cs_it s)))
        (cfg_initialize (lm_start L) c (loop_cfg L) (element_task t) f restart) dc cs (Driver_model.opt_new [])).

(* the same for OC_Optimizer on a heat task *)
Definition heat_oc_run (c : cfgobj) (P : hproblem) (f : sfilter) (restart : option (Z * list R))
    (cs : list Driver_model.call) : res (@Driver_model.opt (cstate istate) * list (option exn)) :=
  let! (dc, ic) := oc_new c in
  Ok (Driver_model.exec_all (cfg_body (heat_iterate P ic)) (fun s => s_change (cs_it s))
        (fun s => match s_kkt (cs_it s) with Some k => Driver_model.KVal k | None => Driver_model.KNonFinite end)
        (cfg_initialize (fun rho f => mkIS rho f 0 0 None None) c ic (plain P) f restart) dc cs (Driver_model.opt_new [])).
