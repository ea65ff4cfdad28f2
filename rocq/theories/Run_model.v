(* Model of a whole optimisation run with OC_Optimizer on an elastic task with the
   spatial filter: one configuration object (core/optimizers/oc.py:96-107 and
   core/optimizers/common_density.py:208-261, 349-389), its schedules
   (common_density.py:643-679), the initialisation (:711-918), the driver (:845-1243)
   and the iteration (:1013-1157), composed of Config_model, Sched_model,
   Driver_model and Iter_model. *)
From Verif Require Import Base OC_model Filter_model Mesh_model Fea_model Iter_model.
From Verif Require Sched_model Config_model Driver_model.
Import Config_model.
Open Scope string_scope.
Open Scope R_scope.
Open Scope list_scope.

(* a dataclass field holding the result of a SchedulerConfig factory *)
Definition fsched (r : res Sched_model.config) : fieldval :=
  match r with Ok c => FSched c | Err _ => FPlain PNone end.
(* OC_Config(): the fields a run reads, with their defaults, common_density.py:208-261,
   380-389 and oc.py:96-107.  The fourth positional argument of sawtooth_decay is
   iters_max (scheduler.py:659-667), so num_steps keeps its own default 6. *)
Definition oc_defaults : cfgobj :=
  [ ("interpolation", FPlain (PStr "SIMP")); ("record_times", FPlain (PInt 20)); ("max_iters", FPlain (PInt 200));
    ("beta_eta", FPlain (PFloat (1/2)));
    ("p", fsched (Sched_model.cfg_step None (Some 1) (Some 3) (Some 3%Z) None));
    ("vol_frac", fsched (Sched_model.cfg_constant None (8/10)));
    ("beta", fsched (Sched_model.cfg_step_accelerating None (Some 1) (Some 2) (Some 3%Z) None (Some 2)));
    ("neumann_scale", fsched (Sched_model.cfg_constant_one (Some "neumann_scale")));
    ("filter_type", FPlain (PStr "helmholtz"));
    ("filter_radius", fsched (Sched_model.cfg_constant None (1/100)));
    ("E_min_coeff", FPlain (PFloat (1/1000))); ("rho_min", FPlain (PFloat (1/100))); ("rho_max", FPlain (PFloat 1));
    ("restart", FPlain (PBool false)); ("restart_from", FPlain (PInt (-1)));
    ("design_dirichlet", FPlain (PBool false)); ("sensitivity_filter", FPlain (PBool false));
    ("scaling", FPlain (PBool false)); ("check_convergence", FPlain (PBool false));
    ("tol_rho_change", FPlain (PFloat (2/10))); ("tol_kkt_residual", FPlain (PFloat (5/1000)));
    ("lambda_lower", FPlain (PFloat (1/10000000))); ("lambda_upper", FPlain (PFloat 10000000));
    ("percentile", fsched Sched_model.cfg_none);
    ("move_limit", fsched (Sched_model.cfg_sawtooth_decay (Some "move_limit") (3/10) (1/10) 3 6));
    ("eta", fsched (Sched_model.cfg_constant None (1/2)));
    ("scaling_rate_min", FPlain (PFloat (7/10))); ("scaling_rate_max", FPlain (PFloat (13/10)));
    ("sensitivity_scale_floor", FPlain (PFloat (1/1000000000000))) ].
(* OC_Config(name=value) for one field *)
Fixpoint with_field (c : cfgobj) (k : string) (v : fieldval) : cfgobj :=
  match c with
  | [] => []
  | (k', v') :: r => if String.eqb k k' then (k', v) :: r else (k', v') :: with_field r k v
  end.

(* reading a field of the expected kind; anything else is outside the dataclass's
   annotations and not modelled *)
Definition field_real (c : cfgobj) (k : string) : res R :=
  match fget c k with
  | Some (FPlain (PFloat r)) => Ok r | Some (FPlain (PInt z)) => Ok (IZR z) | _ => Err NotModelled end.
Definition field_int (c : cfgobj) (k : string) : res Z :=
  match fget c k with Some (FPlain (PInt z)) => Ok z | _ => Err NotModelled end.
Definition field_bool (c : cfgobj) (k : string) : res bool :=
  match fget c k with Some (FPlain (PBool b)) => Ok b | _ => Err NotModelled end.
(* common_density.py:392-404 *)
Definition field_interp (c : cfgobj) : res interp :=
  match fget c "interpolation" with
  | Some (FPlain (PStr s)) =>
    if String.eqb s "SIMP" then Ok SIMP else if String.eqb s "RAMP" then Ok RAMP else Err ValueError
  | _ => Err NotModelled end.

(* OC_Optimizer.__init__, oc.py:111-122 and common_density.py:531-589: the order of
   the bounds is asserted; the values are read when they are used.  scaling=True is
   not modelled here (C54). *)
Definition oc_new (c : cfgobj) : res (Driver_model.dcfg * icfg) :=
  let! ll := field_real c "lambda_lower" in
  let! lu := field_real c "lambda_upper" in
  if negb (Rltb ll lu) then Err AssertionError else
  let! sc := field_bool c "scaling" in
  if sc then Err NotModelled else
  let! k := field_interp c in
  let! m := field_int c "max_iters" in
  let! rt := field_int c "record_times" in
  let! cc := field_bool c "check_convergence" in
  let! tr := field_real c "tol_rho_change" in
  let! tk := field_real c "tol_kkt_residual" in
  let! rmin := field_real c "rho_min" in
  let! rmax := field_real c "rho_max" in
  let! be := field_real c "beta_eta" in
  let! smin := field_real c "scaling_rate_min" in
  let! smax := field_real c "scaling_rate_max" in
  let! fl := field_real c "sensitivity_scale_floor" in
  let! em := field_real c "E_min_coeff" in
  let! sf := field_bool c "sensitivity_filter" in
  let! dd := field_bool c "design_dirichlet" in
  Ok (Driver_model.mkDC m rt cc tr tk,
      mkICfg (mkOCCfg rmin rmax be smin smax fl ll lu) em k sf dd).

(* what the optimizer holds between iterations: its schedulers and its state *)
Record rstate := mkRS { rs_sched : Sched_model.collection; rs_it : istate }.

(* common_density.py:1018-1036.  A None for anything but the percentile would fail in
   the arithmetic below and is not modelled. *)
Definition value_names : list string :=
  ["neumann_scale"; "p"; "vol_frac"; "beta"; "move_limit"; "eta"; "percentile"; "filter_radius"].
Definition values_at (l : Sched_model.collection) (i : Z) : res ivals :=
  let! vs := Sched_model.values_as_list l i value_names in
  match vs with
  | [Some sc; Some p; Some vf; Some be; Some mv; Some et; pc; Some r] => Ok (mkVals sc p vf be mv et pc r)
  | _ => Err NotModelled
  end.

(* 1013-1157.  Simplification: the state an exception leaves behind is the one before
   the iteration. *)
Definition oc_body (pb : problem) (ic : icfg) (i : Z) (s : rstate) : rstate * option exn :=
  match values_at (rs_sched s) i with
  | Err e => (s, Some e)
  | Ok v => match iterate pb ic v i (rs_it s) with
            | Err e => (s, Some e)
            | Ok s' => (mkRS (rs_sched s) s', None)
            end
  end.
(* self.kkt_residual after an iteration *)
Definition oc_kkt (s : rstate) : Driver_model.kktval :=
  match s_kkt (rs_it s) with Some k => Driver_model.KVal k | None => Driver_model.KNonFinite end.

(* scheduler.py:1226-1233: the export evaluates every schedule at 1..iters_max *)
Fixpoint export_one (s : Sched_model.scheduler) (its : list Z) : res unit :=
  match its with [] => Ok tt | i :: r => let! _ := Sched_model.value s i in export_one s r end.
Fixpoint export_all (l : Sched_model.collection) (its : list Z) : res unit :=
  match l with [] => Ok tt | s :: r => let! _ := export_one s its in export_all r its end.

(* cfg.<k> after init_schedulers: from_config has rewritten its fields *)
Definition field_sched (c : cfgobj) (k : string) : res Sched_model.config :=
  match fget c k with
  | Some (FSched s) => let! (s', _) := Sched_model.from_config s in Ok s'
  | _ => Err NotModelled end.
(* common_density.py:714-715 *)
Definition initial_fraction (c : cfgobj) : res R :=
  let! s := field_sched c "vol_frac" in
  match Sched_model.c_init s with
  | Some r => Ok r
  | None => match Sched_model.c_target s with Some r => Ok r | None => Err NotModelled end
  end.
(* common_density.py:818-821 *)
Definition initial_radius (c : cfgobj) : res R :=
  let! s := field_sched c "filter_radius" in
  match (match Sched_model.c_num s with Some _ => Sched_model.c_init s | None => Sched_model.c_target s end) with
  | Some r => Ok r | None => Err NotModelled end.

(* 861-918 through init_schedulers, initialize_params and filter.update_radius;
   [restart] is the iteration and the design densities of the checkpoint found (Ckpt_model).
   [f] is the filter parameterize() made. *)
Definition oc_initialize (c : cfgobj) (ic : icfg) (pb : problem) (f : sfilter) (restart : option (Z * list R))
    : res (rstate * Z) :=
  let! l := init_schedulers c [] in
  let! m := field_int c "max_iters" in
  let! _ := export_all l (Driver_model.zrange 1 (m + 1)) in
  let! v0 := initial_fraction c in
  let! rho := initialize_density pb ic v0 (option_map snd restart) in
  let! r := initial_radius c in
  Ok (mkRS l (mkIS rho (update_radius r f) 0 0 None None),
      match restart with Some (j, _) => (j + 1)%Z | None => 1%Z end).

(* OC_Optimizer(cfg, task); parameterize(); then the calls [cs] of optimize() and
   optimize_steps(n), catching what each raises *)
Definition oc_run (c : cfgobj) (pb : problem) (f : sfilter) (restart : option (Z * list R))
    (cs : list Driver_model.call) : res (@Driver_model.opt rstate * list (option exn)) :=
  let! (dc, ic) := oc_new c in
  Ok (Driver_model.exec_all (oc_body pb ic) (fun s => s_change (rs_it s)) oc_kkt
        (oc_initialize c ic pb f restart) dc cs (Driver_model.opt_new [])).
