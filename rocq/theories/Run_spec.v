(* What the theorems about whole runs mean. *)
From Verif Require Import Base Sched_spec OC_model Filter_model Mesh_model Iter_model Iter_spec.
From Verif Require Sched_model Config_model Driver_model.
Import Config_model.
Open Scope string_scope.
Open Scope R_scope.
Open Scope list_scope.

(* the value x which the schedule in field k prescribes for iteration i of T *)
Definition prescribed (c : cfgobj) (k : string) (T i : Z) (x : option R) : Prop :=
  exists cf cf' s, fget c k = Some (FSched cf) /\ Sched_model.from_config cf = Ok (cf', s) /\
    Sched_model.value (Sched_model.set_iters T s) i = Ok x.
(* the exponent eta may also be a plain number *)
Definition prescribed_eta (c : cfgobj) (T i : Z) (x : R) : Prop :=
  prescribed c "eta" T i (Some x) \/ fget c "eta" = Some (FPlain (PFloat x)).
Definition in_force (c : cfgobj) (T i : Z) (v : ivals) : Prop :=
  prescribed c "neumann_scale" T i (Some (v_scale v)) /\ prescribed c "p" T i (Some (v_p v)) /\
  prescribed c "vol_frac" T i (Some (v_vol_frac v)) /\ prescribed c "beta" T i (Some (v_beta v)) /\
  prescribed c "move_limit" T i (Some (v_move v)) /\ prescribed_eta c T i (v_eta v) /\
  prescribed c "percentile" T i (v_percentile v) /\ prescribed c "filter_radius" T i (Some (v_radius v)).

(* the target written in the configuration *)
Definition target_is (c : cfgobj) (k : string) (x : option R) : Prop :=
  exists cf, fget c k = Some (FSched cf) /\
    effective_target (Sched_model.c_type cf) (Sched_model.c_target cf) = x.

(* a complete schedule from a to b *)
Inductive goes (a b : R) : Sched_model.config -> Prop :=
| g_constant nm i n m cv : a = b -> goes a b (Sched_model.mkConfig nm i (Some b) n m cv "Constant")
| g_none nm i m cv : a = b -> (i = None \/ i = Some a) -> goes a b (Sched_model.mkConfig nm i (Some b) None m cv "None")
| g_one nm i t n m cv : a = 1 -> b = 1 -> goes a b (Sched_model.mkConfig nm i t n m cv "ConstantOne")
| g_step nm n m cv : goes a b (Sched_model.mkConfig nm (Some a) (Some b) (Some n) m cv "Step")
| g_saw nm n m cv : n <> 0%Z -> goes a b (Sched_model.mkConfig nm (Some a) (Some b) (Some n) m cv "SawtoothDecay")
| g_curved nm n m cv ty : In ty ["StepAccelerating"; "StepDecelerating"] -> 0 < cv ->
    goes a b (Sched_model.mkConfig nm (Some a) (Some b) (Some n) m (Some cv) ty)
| g_to_one nm i t n m cv ty : In ty to_one_types -> (0 < n)%Z -> a = 1 / IZR n -> b = 1 ->
    (ty <> "StepToOne" -> exists x, cv = Some x /\ 0 < x) ->
    goes a b (Sched_model.mkConfig nm i t (Some n) m cv ty).
(* field k holds a complete schedule between values satisfying P *)
Definition ranges (c : cfgobj) (k : string) (P : R -> Prop) : Prop :=
  exists cf a b, fget c k = Some (FSched cf) /\ goes a b cf /\ P a /\ P b.

(* the eight schedules are complete and their values usable *)
Record schedules_ok (c : cfgobj) : Prop := mkSO {
  sn_p : ranges c "p" (fun x => 0 < x);
  sn_vol : ranges c "vol_frac" (fun _ => True);
  sn_beta : ranges c "beta" (fun x => 0 < x);
  sn_move : ranges c "move_limit" (fun x => 0 <= x);
  sn_radius : ranges c "filter_radius" (fun x => 0 < x);
  sn_scale : ranges c "neumann_scale" (fun _ => True) /\
             exists cf, fget c "neumann_scale" = Some (FSched cf) /\ In (Sched_model.c_type cf) ("ConstantOne" :: to_one_types);
  sn_eta : ranges c "eta" (fun _ => True) \/ exists e, fget c "eta" = Some (FPlain (PFloat e));
  sn_percentile : ranges c "percentile" (fun _ => True) \/
                  exists cf, fget c "percentile" = Some (FSched cf) /\ Sched_model.c_type cf = "None" /\ Sched_model.c_target cf = None }.
(* a configuration with which a run cannot go wrong *)
Record sane (c : cfgobj) (dc : Driver_model.dcfg) (ic : icfg) : Prop := mkSane {
  sn_schedules : schedules_ok c;
  sn_records : (1 <= Driver_model.record_times dc <= Driver_model.max_iters dc)%Z;
  sn_simp : i_interp ic = SIMP;
  sn_rho : 0 <= c_rho_min (i_oc ic) <= c_rho_max (i_oc ic);
  sn_rate : c_smin (i_oc ic) <= c_smax (i_oc ic);
  sn_floor : 0 < c_floor (i_oc ic);
  sn_lambda : 0 < c_lambda_lower (i_oc ic) }.
(* a task and filter on which every analysis with positive p, beta and radius works *)
Definition sound_task (pb : problem) (ic : icfg) (f : sfilter) : Prop :=
  forall v, 0 < v_p v -> 0 < v_beta v -> 0 < v_radius v -> well_posed pb ic v f.
(* a checkpoint that fits the task: one density within bounds per design element *)
Definition fits (pb : problem) (ic : icfg) (restart : option (Z * list R)) : Prop :=
  forall j data, restart = Some (j, data) -> (0 <= j)%Z /\
    List.length data = List.length (d_design (pb_dom pb)) /\
    forall x, In x data -> c_rho_min (i_oc ic) <= x <= c_rho_max (i_oc ic).
