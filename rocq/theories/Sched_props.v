(* Property theorems for tools/scheduler.py.  Nothing but statements closed by
   [exact], their assumptions, and concrete instances. *)
From Verif Require Import Base Sched_model Sched_spec Sched_proofs Sched_proofs2 Sched_proofs3.
From Verif Require Sched_float Plot_model Plot_proofs.
Open Scope R_scope.
Open Scope string_scope.
Open Scope list_scope.

(* C01: accepted configs build; what value() may do, completely; target held. *)
Theorem C01_accepted_config_builds : forall name init target num iters curv ty cfg,
  from_defaults name init target num iters curv ty = Ok cfg ->
  exists cfg' s, from_config cfg = Ok (cfg', s) /\ s_target s = effective_target ty target.
Proof. exact accepted_builds. Qed.
Print Assumptions C01_accepted_config_builds.

Theorem C01_value_outcomes :
  forall name init target num iters curv ty cfg cfg' s T it,
  from_defaults name init target num iters curv ty = Ok cfg ->
  from_config cfg = Ok (cfg', s) -> (0 < T)%Z -> (0 <= it)%Z ->
  match value (set_iters T s) it with
  | Ok None => ty = "None" /\ target = None
  | Ok (Some _) => ty <> "None" \/ target <> None
  | Err ValueError => ty = "SawtoothDecay" /\ num = Some 0%Z /\ (it < T)%Z
  | Err ZeroDivisionError =>
      In ty ["StepAccelerating"; "StepDecelerating";
             "StepAcceleratingToOne"; "StepDeceleratingToOne"] /\
      (exists c, curv = Some c /\ c < 0) /\ (it < T)%Z
  | Err TypeError =>
      ty = "None" /\ target <> None /\ (exists n, num = Some n /\ (0 <= n)%Z) /\ (it < T)%Z
  | Err _ => False
  end.
Proof. exact value_classified. Qed.
Print Assumptions C01_value_outcomes.

Theorem C01_target_held_from_horizon_on :
  forall name init target num iters curv ty cfg cfg' s T it,
  from_defaults name init target num iters curv ty = Ok cfg ->
  from_config cfg = Ok (cfg', s) -> (T <= it)%Z ->
  value (set_iters T s) it = Ok (effective_target ty target).
Proof. exact accepted_holds_target. Qed.
Print Assumptions C01_target_held_from_horizon_on.

Example C01_instance : exists cfg cfg' s,
  from_defaults (Some "p") (Some 1) (Some 3) (Some 5%Z) None None "Step" = Ok cfg /\
  from_config cfg = Ok (cfg', s) /\ value (set_iters 100 s) 100 = Ok (Some 3).
Proof. do 3 eexists; repeat split; reflexivity. Qed.
(* an accepted sawtooth configuration whose evaluation raises *)
Example C01_sawtooth_zero : exists cfg cfg' s,
  from_defaults None (Some 1) (Some 3) (Some 0%Z) None None "SawtoothDecay" = Ok cfg /\
  from_config cfg = Ok (cfg', s) /\ value (set_iters 100 s) 7 = Err ValueError.
Proof. do 3 eexists; repeat split; reflexivity. Qed.

(* C02 *)
Theorem C02_step_between : forall nm i t n T it, (0 <= it)%Z ->
  exists v, value (SchedulerStep nm i t n T) it = Ok (Some v) /\ between i t v.
Proof. intros nm i t n T it H.
  exact (step_value_between FStep (Some nm) it T i t n 1 None
           (or_introl eq_refl) H Rlt_0_1 (or_introl eq_refl)). Qed.
Print Assumptions C02_step_between.

Theorem C02_accelerating_between : forall nm i t n T c it, (0 <= it)%Z -> 0 < c ->
  exists v, value (SchedulerStepAccelerating nm i t n (Some T) (Some c)) it = Ok (Some v) /\ between i t v.
Proof. intros nm i t n T c it H Hc.
  exact (step_value_between FAccel (Some nm) it T i t n c (Some c)
           (or_intror (or_introl eq_refl)) H Hc (or_intror eq_refl)). Qed.
Print Assumptions C02_accelerating_between.

Theorem C02_decelerating_between : forall nm i t n T c it, (0 <= it)%Z -> 0 < c ->
  exists v, value (SchedulerStepDecelerating nm i t n (Some T) (Some c)) it = Ok (Some v) /\ between i t v.
Proof. intros nm i t n T c it H Hc.
  exact (step_value_between FDecel (Some nm) it T i t n c (Some c)
           (or_intror (or_intror eq_refl)) H Hc (or_intror eq_refl)). Qed.
Print Assumptions C02_decelerating_between.

Theorem C02_sawtooth_between : forall nm i t n T it, (n <> 0)%Z -> (0 < T)%Z ->
  exists v, value (SchedulerSawtoothDecay nm i t n (Some T)) it = Ok (Some v) /\ between i t v.
Proof. intros nm i t n T it. exact (saw_value_between (Some nm) it T i t n). Qed.
Print Assumptions C02_sawtooth_between.

(* C03 *)
Theorem C03_step_monotone : forall nm i t n T it1 it2 v1 v2,
  (0 <= it1)%Z -> (it1 <= it2)%Z ->
  value (SchedulerStep nm i t n T) it1 = Ok (Some v1) ->
  value (SchedulerStep nm i t n T) it2 = Ok (Some v2) -> between v1 t v2.
Proof. intros nm i t n T it1 it2 v1 v2 H0 H1.
  exact (step_value_toward FStep (Some nm) it1 it2 T i t n 1 None v1 v2
           (or_introl eq_refl) H0 H1 Rlt_0_1 (or_introl eq_refl)). Qed.
Print Assumptions C03_step_monotone.

Theorem C03_accelerating_monotone : forall nm i t n T c it1 it2 v1 v2,
  (0 <= it1)%Z -> (it1 <= it2)%Z -> 0 < c ->
  value (SchedulerStepAccelerating nm i t n (Some T) (Some c)) it1 = Ok (Some v1) ->
  value (SchedulerStepAccelerating nm i t n (Some T) (Some c)) it2 = Ok (Some v2) -> between v1 t v2.
Proof. intros nm i t n T c it1 it2 v1 v2 H0 H1 Hc.
  exact (step_value_toward FAccel (Some nm) it1 it2 T i t n c (Some c) v1 v2
           (or_intror (or_introl eq_refl)) H0 H1 Hc (or_intror eq_refl)). Qed.
Print Assumptions C03_accelerating_monotone.

Theorem C03_decelerating_monotone : forall nm i t n T c it1 it2 v1 v2,
  (0 <= it1)%Z -> (it1 <= it2)%Z -> 0 < c ->
  value (SchedulerStepDecelerating nm i t n (Some T) (Some c)) it1 = Ok (Some v1) ->
  value (SchedulerStepDecelerating nm i t n (Some T) (Some c)) it2 = Ok (Some v2) -> between v1 t v2.
Proof. intros nm i t n T c it1 it2 v1 v2 H0 H1 Hc.
  exact (step_value_toward FDecel (Some nm) it1 it2 T i t n c (Some c) v1 v2
           (or_intror (or_intror eq_refl)) H0 H1 Hc (or_intror eq_refl)). Qed.
Print Assumptions C03_decelerating_monotone.

(* C04 *)
Theorem C04_step_value_on_plateau : forall nm i t n T k it,
  (2 <= n)%Z -> (0 <= it < T)%Z -> (k < n)%Z -> in_part T n k it ->
  value (SchedulerStep nm i t n T) it = Ok (Some (i + IZR k / IZR (n - 1) * (t - i))).
Proof. exact step_value_in_part. Qed.
Print Assumptions C04_step_value_on_plateau.

Theorem C04_every_iteration_on_a_plateau : forall T n it,
  (0 < T)%Z -> (0 < n)%Z -> (0 <= it < T)%Z -> exists k, (0 <= k < n)%Z /\ in_part T n k it.
Proof. exact in_part_exists. Qed.
Print Assumptions C04_every_iteration_on_a_plateau.

Theorem C04_plateau_lengths : forall nm i t n T k,
  (2 <= n)%Z -> (0 < T)%Z -> (0 <= k < n)%Z -> i <> t ->
  exists lo hi,
    (0 <= lo)%Z /\ (hi <= T)%Z /\
    ((hi - lo = T / n)%Z \/ (hi - lo = T / n + 1)%Z) /\
    forall it, (0 <= it < T)%Z ->
      (value (SchedulerStep nm i t n T) it = Ok (Some (i + IZR k / IZR (n - 1) * (t - i)))
       <-> (lo <= it < hi)%Z).
Proof. exact step_plateaus. Qed.
Print Assumptions C04_plateau_lengths.

(* docstring of SchedulerStep: value(50) = 2.0 for 1 -> 3 in 5 steps over 100 *)
Example C04_doc_example : value (SchedulerStep "p" 1 3 5 100) 50 = Ok (Some 2).
Proof. rewrite (C04_step_value_on_plateau "p" 1 3 5 100 2 50);
  [do 2 f_equal; cbn; lra| lia | lia | lia | unfold in_part; lia]. Qed.

(* C05 *)
Theorem C05_curvature_one_is_linear : forall nm i t n T it, (0 <= it)%Z ->
  value (SchedulerStepAccelerating nm i t n (Some T) (Some 1)) it = value (SchedulerStep nm i t n T) it /\
  value (SchedulerStepDecelerating nm i t n (Some T) (Some 1)) it = value (SchedulerStep nm i t n T) it.
Proof. exact curvature_one. Qed.
Print Assumptions C05_curvature_one_is_linear.

Theorem C05_curvature_order : forall nm i t n T it c1 c2 a1 a2 l d1 d2,
  (0 <= it)%Z -> 1 <= c1 -> c1 <= c2 ->
  value (SchedulerStepAccelerating nm i t n (Some T) (Some c1)) it = Ok (Some a1) ->
  value (SchedulerStepAccelerating nm i t n (Some T) (Some c2)) it = Ok (Some a2) ->
  value (SchedulerStep nm i t n T) it = Ok (Some l) ->
  value (SchedulerStepDecelerating nm i t n (Some T) (Some c1)) it = Ok (Some d1) ->
  value (SchedulerStepDecelerating nm i t n (Some T) (Some c2)) it = Ok (Some d2) ->
  between i l a1 /\ between i a1 a2 /\ between l t d1 /\ between d1 t d2.
Proof. exact curvature_order. Qed.
Print Assumptions C05_curvature_order.

Theorem C05_decelerating_mirrors_accelerating : forall nm i t n T c it it' k,
  (2 <= n)%Z -> 0 < c -> (0 <= it < T)%Z -> (0 <= it' < T)%Z -> (0 <= k < n)%Z ->
  in_part T n k it -> in_part T n (n - 1 - k) it' ->
  value (SchedulerStepDecelerating nm i t n (Some T) (Some c)) it =
  value (SchedulerStepAccelerating nm t i n (Some T) (Some c)) it'.
Proof. exact decel_mirrors_accel. Qed.
Print Assumptions C05_decelerating_mirrors_accelerating.

Example C05_instance : in_part 120 6 1 25 /\ in_part 120 6 (6 - 1 - 1) 90.
Proof. unfold in_part; lia. Qed.

(* C06 *)
Theorem C06_sawtooth_linear_in_cycle : forall nm i t n T it j,
  (0 < n)%Z -> (1 <= it < T)%Z -> (0 <= j)%Z ->
  IZR j * (IZR T / IZR n) <= IZR (it - 1) < (IZR j + 1) * (IZR T / IZR n) ->
  value (SchedulerSawtoothDecay nm i t n (Some T)) it =
  Ok (Some (i + (IZR (it - 1) - IZR j * (IZR T / IZR n)) / (IZR T / IZR n) * (t - i))).
Proof. exact saw_linear. Qed.
Print Assumptions C06_sawtooth_linear_in_cycle.

Theorem C06_sawtooth_every_iteration_in_a_cycle : forall n T it,
  (0 < n)%Z -> (1 <= it < T)%Z ->
  exists j, (0 <= j < n)%Z /\
    IZR j * (IZR T / IZR n) <= IZR (it - 1) < (IZR j + 1) * (IZR T / IZR n).
Proof. exact saw_cycle_exists. Qed.
Print Assumptions C06_sawtooth_every_iteration_in_a_cycle.

Theorem C06_sawtooth_periodic : forall nm i t n L it,
  (0 < n)%Z -> (0 < L)%Z -> (1 <= it)%Z -> (it + L < n * L)%Z ->
  value (SchedulerSawtoothDecay nm i t n (Some (n * L)%Z)) (it + L) =
  value (SchedulerSawtoothDecay nm i t n (Some (n * L)%Z)) it.
Proof. exact saw_periodic. Qed.
Print Assumptions C06_sawtooth_periodic.

(* "decays from init_value to target_value over each cycle": before the horizon
   the target is never reached, in any cycle *)
Theorem C06_sawtooth_never_reaches_target_inside : forall nm i t n T it v,
  (0 < n)%Z -> (1 <= it < T)%Z -> i <> t ->
  value (SchedulerSawtoothDecay nm i t n (Some T)) it = Ok (Some v) -> v <> t.
Proof. exact saw_never_target. Qed.
Print Assumptions C06_sawtooth_never_reaches_target_inside.

(* the docstring's example values 0.2 at 30 and 0.1 at 60 are not produced *)
Theorem C06_sawtooth_doc_example_refuted : exists v30 v60,
  value (SchedulerSawtoothDecay "move" (3/10) (1/10) 4 (Some 120%Z)) 30 = Ok (Some v30) /\
  value (SchedulerSawtoothDecay "move" (3/10) (1/10) 4 (Some 120%Z)) 60 = Ok (Some v60) /\
  v30 <> 2/10 /\ v60 <> 1/10.
Proof.
  exists (8/75), (8/75).
  rewrite (saw_linear "move" (3/10) (1/10) 4 120 30 0), (saw_linear "move" (3/10) (1/10) 4 120 60 1)
    by (try lia; cbn; lra).
  split; [do 2 f_equal; cbn; lra|]. split; [do 2 f_equal; cbn; lra|]. lra.
Qed.
Print Assumptions C06_sawtooth_doc_example_refuted.

Example C06_doc_example_rest :
  value (SchedulerSawtoothDecay "move" (3/10) (1/10) 4 (Some 120%Z)) 1 = Ok (Some (3/10)) /\
  value (SchedulerSawtoothDecay "move" (3/10) (1/10) 4 (Some 120%Z)) 61 = Ok (Some (3/10)).
Proof.
  rewrite (saw_linear "move" (3/10) (1/10) 4 120 1 0), (saw_linear "move" (3/10) (1/10) 4 120 61 2)
    by (try lia; cbn; lra).
  split; do 2 f_equal; cbn; lra.
Qed.

(* In IEEE binary64 the reset can be missed: with the optimizer's defaults
   (200 iterations, 6 cycles, 0.3 -> 0.1) iteration 101 starts cycle 3
   (100 * 6 = 3 * 200), yet the float computation returns less than 0.11. *)
Theorem C06_sawtooth_reset_binary64_refuted : exists it total n : Z,
  (1 <= it < total)%Z /\ ((it - 1) * n = 3 * total)%Z /\
  SpecFloat.SFltb
    (Sched_float.saw64 it total n Sched_float.f0_3 Sched_float.f0_1)
    (Sched_float.fdiv (Sched_float.fint 11) (Sched_float.fint 100)) = true.
Proof. exists 101%Z, 200%Z, 6%Z. vm_compute. repeat split; congruence. Qed.
Print Assumptions C06_sawtooth_reset_binary64_refuted.

(* ... and a Step plateau can start one iteration late in binary64 *)
Theorem C04_plateau_boundary_binary64_refuted : exists it total n k : Z,
  in_part total n k it /\ (k < n)%Z /\ Sched_float.step_index64 it total n <> k.
Proof. exists 100%Z, 200%Z, 6%Z, 3%Z. unfold in_part. vm_compute. repeat split; congruence. Qed.
Print Assumptions C04_plateau_boundary_binary64_refuted.

(* C07 *)
Theorem C07_from_defaults_accepts_exactly : forall name init target num iters curv ty cfg,
  from_defaults name init target num iters curv ty = Ok cfg <->
  acceptable ty init target num curv /\
  cfg = mkConfig name (effective_init ty init target num) (effective_target ty target)
          num iters curv ty.
Proof. exact from_defaults_iff. Qed.
Print Assumptions C07_from_defaults_accepts_exactly.

Theorem C07_rejections_are_ValueError : forall name init target num iters curv ty e,
  from_defaults name init target num iters curv ty = Err e -> e = ValueError.
Proof. exact from_defaults_err. Qed.
Print Assumptions C07_rejections_are_ValueError.

Example C07_instances :
  acceptable "StepToOne" None None (Some 4%Z) None /\
  from_defaults None (Some 1) None (Some 4%Z) None None "Step" = Err ValueError /\
  from_defaults None (Some 1) (Some 2) (Some 4%Z) None None "step" = Err ValueError.
Proof. split; [|split; reflexivity].
  apply acc_to_one; [simpl; auto|lia|discriminate|congruence]. Qed.

(* C08 *)
Theorem C08_to_one_climbs_to_one :
  forall name init target num iters curv ty cfg cfg' s T it1 it2,
  In ty to_one_types ->
  from_defaults name init target num iters curv ty = Ok cfg ->
  from_config cfg = Ok (cfg', s) ->
  (forall c, curv = Some c -> 0 < c) ->
  (0 <= it1 <= it2)%Z ->
  exists n v1 v2, num = Some n /\
    value (set_iters T s) it1 = Ok (Some v1) /\
    value (set_iters T s) it2 = Ok (Some v2) /\
    1 / IZR n <= v1 /\ v1 <= v2 /\ v2 <= 1 /\ ((T <= it2)%Z -> v2 = 1).
Proof. exact to_one_climbs. Qed.
Print Assumptions C08_to_one_climbs_to_one.

Example C08_instance : exists cfg cfg' s,
  from_defaults None (Some 7) None (Some 4%Z) None (Some 2) "StepAcceleratingToOne" = Ok cfg /\
  from_config cfg = Ok (cfg', s) /\ value (set_iters 8 s) 1 = Ok (Some (1/4)).
Proof.
  do 3 eexists. split; [apply from_defaults_complete; apply acc_to_one; [simpl; auto|lia|discriminate|discriminate]|].
  split; [reflexivity|].
  change (value (step_sched FAccel None (1 / IZR 4) 1 4 8 (Some 2)) 1 = Ok (Some (1 / 4))).
  rewrite (value_step FAccel None 1 8 (1/4) 1 4 2 (Some 2)) by (unfold is_step; auto; try lia; right; lra).
  unfold vweight, weight; cbn [Z.ltb Z.leb Z.compare Pos.compare Pos.compare_cont].
  unfold alpha_of; rewrite (step_index_part 1 8 4 0) by (unfold in_part; lia).
  replace (0 / IZR (4 - 1)) with 0 by (unfold Rdiv; ring). rewrite pw_0. do 2 f_equal; unfold mix; lra.
Qed.

(* C09 *)
Theorem C09_from_config_repeatable : forall c c' s,
  from_config c = Ok (c', s) -> from_config c' = Ok (c', s).
Proof. exact from_config_idem. Qed.
Print Assumptions C09_from_config_repeatable.

Theorem C09_classes_agree_with_factories : forall nm i t n T c,
  built (cfg_step (Some nm) (Some i) (Some t) (Some n) (Some T)) = Ok (SchedulerStep nm i t n T) /\
  built (cfg_step_accelerating (Some nm) (Some i) (Some t) (Some n) (Some T) (Some c))
    = Ok (SchedulerStepAccelerating nm i t n (Some T) (Some c)) /\
  built (cfg_step_decelerating (Some nm) (Some i) (Some t) (Some n) (Some T) (Some c))
    = Ok (SchedulerStepDecelerating nm i t n (Some T) (Some c)) /\
  built (cfg_sawtooth_decay (Some nm) i t T n) = Ok (SchedulerSawtoothDecay nm i t n (Some T)).
Proof. exact classes_agree. Qed.
Print Assumptions C09_classes_agree_with_factories.

Theorem C09_to_one_classes_agree_with_factories : forall nm num T c,
  built (cfg_step_to_one (Some nm) num (Some T)) = SchedulerStepToOne nm num T /\
  built (cfg_step_accelerating_to_one (Some nm) num (Some T) c)
    = SchedulerStepAcceleratingToOne nm num (Some T) c /\
  built (cfg_step_decelerating_to_one (Some nm) num (Some T) c)
    = SchedulerStepDeceleratingToOne nm num (Some T) c.
Proof. exact to_one_classes_agree. Qed.
Print Assumptions C09_to_one_classes_agree_with_factories.


(* the factories for constants: the given value (1 for constant_one) at every
   iteration of every horizon, named as asked; the none factory answers None *)
Theorem C09_constant_factories : forall nm t T it,
  (exists s, built (cfg_constant nm t) = Ok s /\ s_name s = nm /\ s_init s = Some t /\
             value s it = Ok (Some t) /\ value (set_iters T s) it = Ok (Some t)) /\
  (exists s, built (cfg_constant_one nm) = Ok s /\ s_name s = nm /\ s_init s = Some 1 /\
             value s it = Ok (Some 1) /\ value (set_iters T s) it = Ok (Some 1)) /\
  (exists s, built cfg_none = Ok s /\ value s it = Ok None /\ value (set_iters T s) it = Ok None).
Proof.
  intros nm t T it. split; [|split]; eexists; (split; [reflexivity|]); repeat split; reflexivity.
Qed.
Print Assumptions C09_constant_factories.

(* C10 *)
Theorem C10_collection_answers_by_name : forall ops it order,
  (forall s, In s (run_ops ops) -> exists v, value s it = Ok v) ->
  forall r, values_as_list (run_ops ops) it order = r ->
  match r with
  | Ok vs => Forall2 (fun k v => exists s,
        effective scheduler s_name set_iters (rev ops) None k = Some s /\ value s it = Ok v) order vs
  | Err e => e = KeyError /\
        exists k, In k order /\ effective scheduler s_name set_iters (rev ops) None k = None
  end.
Proof. exact collection_answers. Qed.
Print Assumptions C10_collection_answers_by_name.

Theorem C10_key_error_iff_unknown_name : forall ops it order,
  (forall s, In s (run_ops ops) -> exists v, value s it = Ok v) ->
  (values_as_list (run_ops ops) it order = Err KeyError <->
   exists k, In k order /\ effective scheduler s_name set_iters (rev ops) None k = None).
Proof. exact key_error_iff. Qed.
Print Assumptions C10_key_error_iff_unknown_name.

Example C10_instance :
  values_as_list (run_ops [Register (SchedulerStep "p" 1 3 1 10); Register (SchedulerStep "q" 5 6 1 10);
                  Register (SchedulerStep "p" 1 4 1 10); SetHorizon 20]) 7 ["q"; "p"]
  = Ok [Some 6; Some 4].
Proof. reflexivity. Qed.

(* C11 *)
Theorem C11_exp_slowdown : forall total i t rate, (0 < total)%Z -> 0 < rate ->
  schedule_exp_slowdown 0 total i t rate = Ok i /\
  schedule_exp_slowdown total total i t rate = Ok t /\
  forall it1 it2, (0 <= it1 <= it2)%Z -> (it2 <= total)%Z ->
   exists v1 v2, schedule_exp_slowdown it1 total i t rate = Ok v1 /\
     schedule_exp_slowdown it2 total i t rate = Ok v2 /\ between i t v1 /\ between v1 t v2.
Proof. exact exp_slow_ok. Qed.
Print Assumptions C11_exp_slowdown.

(* missing from the full property: the start value, see the next theorem *)
Theorem C11_exp_accelerate_partial : forall total i t rate, (0 < total)%Z -> 0 < rate ->
  schedule_exp_accelerate total total i t rate = Ok t /\
  forall it1 it2, (0 <= it1 <= it2)%Z -> (it2 <= total)%Z ->
   exists v1 v2, schedule_exp_accelerate it1 total i t rate = Ok v1 /\
     schedule_exp_accelerate it2 total i t rate = Ok v2 /\ between i t v1 /\ between v1 t v2.
Proof. exact exp_accel_ok. Qed.
Print Assumptions C11_exp_accelerate_partial.

Theorem C11_exp_accelerate_start_refuted : forall total i t rate v,
  (0 < total)%Z -> 0 < rate -> i <> t ->
  schedule_exp_accelerate 0 total i t rate = Ok v -> v <> i.
Proof. exact exp_accel_start_wrong. Qed.
Print Assumptions C11_exp_accelerate_start_refuted.

(* C12 *)
Theorem C12_every_series_drawn_once : forall n,
  List.concat (map (fun pg => map fst (Plot_model.pg_used pg)) (Plot_model.draw n)) = seq 0 n.
Proof. exact Plot_proofs.all_series_once. Qed.
Print Assumptions C12_every_series_drawn_once.

Theorem C12_panels_fit_and_are_distinct : forall n pg,
  In pg (Plot_model.draw n) ->
  (1 <= Plot_model.pg_rows pg <= 2)%nat /\
  NoDup (map snd (Plot_model.pg_used pg) ++ Plot_model.pg_off pg) /\
  (forall r c, In (r, c) (map snd (Plot_model.pg_used pg) ++ Plot_model.pg_off pg)
               <-> (r < Plot_model.pg_rows pg /\ c < 4)%nat).
Proof. exact Plot_proofs.layout_ok. Qed.
Print Assumptions C12_panels_fit_and_are_distinct.

Example C12_instance : List.length (Plot_model.draw 13) = 2%nat /\
  map fst (Plot_model.pg_used (nth 1 (Plot_model.draw 13) (Plot_model.mkPage 0 [] []))) = [8;9;10;11;12]%nat.
Proof. split; reflexivity. Qed.

(* the constant schedulers: initial value and target agree *)
Theorem C09_constant_schedulers : forall c c' s, from_config c = Ok (c', s) ->
  (c_type c = "ConstantOne" -> s_init s = Some 1 /\ s_target s = Some 1 /\ c_init c' = Some 1 /\ c_target c' = Some 1) /\
  (c_type c = "Constant" -> s_init s = c_target c /\ s_target s = c_target c /\ c_init c' = c_target c).
Proof.
  intros [nm i t n m cv ty] c' s H. split; cbn [c_type]; intros ->; cbn in H; injection H as <- <-; repeat split.
Qed.
Print Assumptions C09_constant_schedulers.
