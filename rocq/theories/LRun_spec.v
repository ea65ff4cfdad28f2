(* What the theorems about whole LogMOC runs and heat runs mean. *)
From Verif Require Import Base OC_model LogMOC_model Filter_model Mesh_model Iter_model Iter_spec Heat_model Heat_spec HeatIter_model HeatIter_spec LMIter_model LMIter_spec Run_spec.
From Verif Require Driver_model Config_model.
Open Scope R_scope.

(* a LogMOC configuration with which a fresh run cannot go wrong *)
Record lm_sane (c : Config_model.cfgobj) (dc : Driver_model.dcfg) (L : lcfg) : Prop := mkLSane {
  lsn_schedules : schedules_ok c;
  lsn_records : (1 <= Driver_model.record_times dc <= Driver_model.max_iters dc)%Z;
  lsn_rho : 0 < m_rho_min (l_m L) <= m_rho_max (l_m L);
  lsn_lambda : m_lambda_lower (l_m L) <= m_lambda_upper (l_m L) }.
(* a task and filter on which every analysis with positive p, beta and radius works *)
Definition sound_any (t : anytask) (T : task_args) (L : lcfg) (f : sfilter) : Prop :=
  forall v, 0 < v_p v -> 0 < v_beta v -> 0 < v_radius v -> ready t T L v f.
(* the same for a heat task under the OC update *)
Definition sound_heat (s : hsettings) (D : list nat) (values : farg) (ic : icfg) (f : sfilter) : Prop :=
  forall v, 0 < v_p v -> 0 < v_beta v -> 0 < v_radius v -> heat_ready s D values ic v f.
(* what a call of optimize() or optimize_steps(n) gives when its first iteration raises e *)
Definition refused_with (e : exn) (k : Driver_model.call) : option exn :=
  match k with Driver_model.CSteps n => if (n <=? 0)%Z then None else Some e | Driver_model.COptimize => Some e end.
