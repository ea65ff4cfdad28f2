(* What the theorems about whole runs with the default filter mean. *)
From Verif Require Import Base Sums LinAlg Material_model OC_model LogMOC_model Filter_model Helmholtz_model HzRange_spec Mesh_model Fea_model Iter_model Iter_spec
  HeatIter_model HeatIter_spec LMIter_model LMIter_spec HzIter_model HzIter_spec Run_model Run_spec LRun_model LRun_spec HzRun_model.
From Verif Require Sched_model Config_model Driver_model.
Import Config_model.
Open Scope string_scope.
Open Scope R_scope.
Open Scope list_scope.

(* the task can be analysed with every positive p, beta and radius *)
Definition sound_default (t : anytask) (T : task_args) (ic : icfg) : Prop :=
  forall v, 0 < v_p v -> 0 < v_beta v -> 0 < v_radius v -> task_ready t T ic v.
(* the radius schedule stays at or above r0 *)
Definition radius_from (c : cfgobj) (r0 : R) : Prop := ranges c "filter_radius" (fun x => r0 <= x).
(* the filter works on the mesh with radius r0, and its linear solver with every radius
   from r0 on *)
Definition sound_filter (f : hfilter) (n : nat) (r0 : R) : Prop :=
  0 < r0 /\ filter_ready f n r0 /\ forall r D bc b, r0 <= r -> Helmholtz_model.solves (hz_mesh f) r D bc b (hz_solve f r D bc b).
(* settings of a run that cannot go wrong: as Run_spec.sane, without its condition on
   the interpolation *)
Record sane_default (c : cfgobj) (dc : Driver_model.dcfg) (ic : icfg) : Prop := mkSD {
  sd_type : fget c "filter_type" = Some (FPlain (PStr "helmholtz"));
  sd_schedules : schedules_ok c;
  sd_records : (1 <= Driver_model.record_times dc <= Driver_model.max_iters dc)%Z;
  sd_plain : i_sens_filter ic = false;
  sd_rho : 0 <= c_rho_min (i_oc ic) <= c_rho_max (i_oc ic);
  sd_rate : c_smin (i_oc ic) <= c_smax (i_oc ic);
  sd_floor : 0 < c_floor (i_oc ic);
  sd_lambda : 0 < c_lambda_lower (i_oc ic) }.
(* the same for LogMOC *)
Definition lm_sane_default (c : cfgobj) (dc : Driver_model.dcfg) (L : lcfg) : Prop :=
  fget c "filter_type" = Some (FPlain (PStr "helmholtz")) /\ lm_sane c dc L.
