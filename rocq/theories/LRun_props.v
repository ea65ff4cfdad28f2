(* C99: whole LogMOC runs from a configuration object; C100: whole OC runs on heat tasks. *)
From Verif Require Import Base Sched_spec OC_model OC_spec LogMOC_model Filter_model Mesh_model Fea_model Iter_model Iter_spec Iter_proofs Iter_props
  Heat_model Heat_spec HeatAdj_model HeatIter_model HeatIter_spec HeatIter_props LMIter_model LMIter_spec LMIter_props
  Run_model Run_spec Run_proofs Run_props LRun_model LRun_spec LRun_proofs.
From Verif Require Sched_model Config_model Driver_model Driver_spec Driver_proofs Driver_props.
Import Config_model.
Open Scope string_scope.
Open Scope R_scope.
Open Scope list_scope.

Lemma lm_new_max c dc L : lm_new c = Ok (dc, L) -> field_int c "max_iters" = Ok (Driver_model.max_iters dc).
Proof.
  unfold lm_new. intros H.
  repeat match type of H with
  | bind ?x _ = _ => let E := fresh "E" in destruct x eqn:E; [|discriminate H]; cbn [bind] in H
  | (if ?b then _ else _) = _ => destruct b; [discriminate H|] end.
  injection H as <- <-. reflexivity.
Qed.

(* the filter of an analysed iteration has the scheduled radius *)
Lemma sf_forward_radius f x f' y : sf_forward f x = Ok (f', y) -> sf_radius f' = sf_radius f.
Proof.
  unfold sf_forward. destruct (Reqb (sf_radius f) 0); [discriminate|].
  destruct (build_filter_matrix _ _ _ _); [|discriminate]. cbn [bind]. destruct (negb _); [discriminate|]. intros H. injection H as <- <-. reflexivity.
Qed.
Lemma heat_evaluate_radius P ic v f rho f' ev : heat_evaluate P ic v f rho = Ok (f', ev) -> sf_radius f' = v_radius v.
Proof.
  unfold heat_evaluate. set (fa := if Reqb (v_radius v) (sf_radius f) then f else update_radius (v_radius v) f).
  assert (Hr : sf_radius fa = v_radius v).
  { unfold fa. destruct (Reqb (v_radius v) (sf_radius f)) eqn:E; [|reflexivity]. apply Reqb_true in E. auto. }
  intros H. destruct (sf_forward fa rho) as [[fb rf]|] eqn:E1; [|discriminate]. cbn [bind] in H.
  destruct (n_tasks _) as [nt|]; [|discriminate]. cbn [bind] in H. destruct (Nat.eqb nt 0); [discriminate|].
  destruct (objective_call _ _ _) as [[[Js Ts] Ls]|]; [|discriminate]. cbn [bind] in H.
  destruct (energy_multi_load _ _ _ _ _); [|discriminate]. cbn [bind] in H. destruct (heat_sensitivity _ _ _ _); [|discriminate]. cbn [bind] in H.
  destruct (sum_gradients _ _ _) as [g|]; [|discriminate]. cbn [bind] in H.
  destruct (i_sens_filter ic).
  - match type of H with bind ?x _ = _ => destruct x as [[fc g']|] eqn:E2; [|discriminate] end. cbn [bind] in H. injection H as <- <-.
    rewrite (sf_forward_radius _ _ _ _ E2), (sf_forward_radius _ _ _ _ E1). exact Hr.
  - injection H as <- <-. rewrite (sf_forward_radius _ _ _ _ E1). exact Hr.
Qed.
Lemma lm_iterate_radius t L v i s s' : lm_iterate t L v i s = Ok s' -> sf_radius (ls_filter s') = v_radius v.
Proof.
  unfold lm_iterate. destruct (analyse t L v (ls_filter s) (ls_rho s)) as [[f ev]|] eqn:E; [|discriminate]. cbn [bind]. intros H.
  destruct (lm_advance_inv _ _ _ _ _ _ _ _ H) as (o & _ & ->). cbn [ls_filter].
  destruct t as [pb|P]; cbn [analyse] in E; [now apply evaluate_radius in E|now apply heat_evaluate_radius in E].
Qed.
Lemma heat_iterate_radius P ic v i s s' : heat_iterate P ic v i s = Ok s' -> sf_radius (s_filter s') = v_radius v.
Proof.
  unfold heat_iterate. destruct (heat_evaluate P ic v (s_filter s) (s_rho s)) as [[f ev]|] eqn:E; [|discriminate]. cbn [bind].
  unfold advance. destruct (rho_update _ _ _) as [r|]; [|discriminate]. destruct (r_rho r); [|discriminate].
  intros H. injection H as <-. cbn [s_filter]. now apply heat_evaluate_radius in E.
Qed.

(* Whatever calls are made and wherever the run started, the iterations are numbered
   consecutively and each used exactly the values its schedules prescribe for its number. *)
Theorem C99_values_as_configured : forall c t f restart cs o rs dc L,
  lm_new c = Ok (dc, L) -> logmoc_run c t f restart cs = Ok (o, rs) -> Forall (eq None) rs ->
  let begin := match restart with Some (j, _) => (j + 1)%Z | None => 1%Z end in
  forall pre i s post, Driver_model.o_trace o = pre ++ (i, s) :: post ->
  i = (begin + Z.of_nat (List.length pre))%Z /\ (i <= Driver_model.max_iters dc)%Z /\
  exists s0 v, cfg_initialize (lm_start L) c (loop_cfg L) (element_task t) f restart = Ok (s0, begin) /\
    in_force c (Driver_model.max_iters dc) i v /\
    lm_iterate t L v i (cs_it (Driver_spec.final_state s0 pre)) = Ok (cs_it s) /\
    sf_radius (ls_filter (cs_it s)) = v_radius v.
Proof.
  intros c t f restart cs o rs dc L Hn Hrun Hok begin pre i s post Htr.
  unfold logmoc_run in Hrun. rewrite Hn in Hrun. cbn [bind] in Hrun. apply ok_inj in Hrun.
  destruct (cfg_values _ _ _ _ _ _ _ _ _ _ _ _ _ (lm_new_max _ _ _ Hn) Hrun Hok pre i s post Htr) as (H1 & H2 & s0 & v & H3 & H4 & H5).
  split; [exact H1|]. split; [exact H2|]. exists s0, v. split; [exact H3|]. split; [exact H4|]. split; [exact H5|].
  now apply lm_iterate_radius in H5.
Qed.
Print Assumptions C99_values_as_configured.

(* Every setting of the optimizer is read from the field of its own name. *)
Theorem C99_settings_from_fields : forall c dc L, lm_new c = Ok (dc, L) ->
  field_int c "max_iters" = Ok (Driver_model.max_iters dc) /\ field_int c "record_times" = Ok (Driver_model.record_times dc) /\
  field_bool c "check_convergence" = Ok (Driver_model.check_convergence dc) /\
  field_real c "tol_rho_change" = Ok (Driver_model.tol_rho_change dc) /\ field_real c "tol_kkt_residual" = Ok (Driver_model.tol_kkt_residual dc) /\
  field_interp c = Ok (l_interp L) /\ field_real c "E_min_coeff" = Ok (l_Emin_coeff L) /\
  field_bool c "sensitivity_filter" = Ok (l_sens_filter L) /\ field_bool c "design_dirichlet" = Ok (l_design_dirichlet L) /\
  let m := l_m L in
  field_real c "rho_min" = Ok (m_rho_min m) /\ field_real c "rho_max" = Ok (m_rho_max m) /\ field_real c "beta_eta" = Ok (m_beta_eta m) /\
  field_real c "mu_p" = Ok (m_mu_p m) /\ field_real c "augmented_lagrangian_mu" = Ok (m_aug_mu m) /\
  field_real c "lambda_v" = Ok (m_lambda_init m) /\ field_real c "lambda_decay" = Ok (m_decay m) /\
  field_real c "lambda_lower" = Ok (m_lambda_lower m) /\ field_real c "lambda_upper" = Ok (m_lambda_upper m) /\
  field_real c "lagrangian_clip" = Ok (m_lclip m) /\ field_real c "lagrangian_percentile" = Ok (m_lpercentile m) /\
  field_real c "lagrangian_scale_floor" = Ok (m_lfloor m) /\ field_bool c "normalize_volume_chain" = Ok (m_normalize m) /\
  field_real c "volume_chain_percentile" = Ok (m_vpercentile m) /\ field_real c "volume_chain_scale_floor" = Ok (m_vfloor m) /\
  field_real c "volume_chain_gain" = Ok (m_gain m) /\
  match m_gain_under m with None => fget c "volume_chain_gain_under" = Some (FPlain PNone) | Some g => field_real c "volume_chain_gain_under" = Ok g end /\
  (m_augmented m = true <-> fget c "dual_update" = Some (FPlain (PStr "augmented"))) /\
  field_bool c "filter_lagrangian" = Ok (m_filter_lagrangian m) /\ field_bool c "center_lagrangian" = Ok (m_center_lagrangian m) /\
  field_bool c "center_objective" = Ok (m_center_objective m).
Proof.
  unfold lm_new. intros c dc L H.
  repeat match type of H with
  | bind ?x _ = _ => let E := fresh "E" in destruct x eqn:E; [|discriminate H]; cbn [bind] in H
  | (if ?b then _ else _) = _ => destruct b; [discriminate H|] end.
  injection H as <- <-.
  match goal with E : field_gain_under c = Ok ?g |- _ =>
    assert (G : match g with None => fget c "volume_chain_gain_under" = Some (FPlain PNone) | Some g => field_real c "volume_chain_gain_under" = Ok g end) end.
  { unfold field_gain_under in *. unfold field_real in *. destruct (fget c "volume_chain_gain_under") as [[[]| |]|]; cbn [bind] in *; try discriminate;
      match goal with E : Ok _ = Ok ?g |- context [match ?g with _ => _ end] => injection E as <-; reflexivity end. }
  match goal with E : field_augmented c = Ok ?g |- _ =>
    assert (A : g = true <-> fget c "dual_update" = Some (FPlain (PStr "augmented"))) end.
  { unfold field_augmented in *. destruct (fget c "dual_update") as [[[]| |]|]; try discriminate.
    match goal with E : Ok _ = Ok ?g |- _ => injection E as <- end. rewrite String.eqb_eq. split; [now intros ->|now intros [= ->]]. }
  cbn. do 5 (split; [first [assumption|reflexivity]|]). repeat (split; [first [exact G|exact A|reflexivity|assumption]|]). first [reflexivity|assumption].
Qed.
Print Assumptions C99_settings_from_fields.

(* With optimize() last, a run that raised nothing ended at its first iteration meeting
   both criteria, which is also on disk, or met them nowhere and went to max_iters. *)
Theorem C99_stops_when_converged : forall c t f restart cs o rs cc tr tk m,
  logmoc_run c t f restart (cs ++ [Driver_model.COptimize]) = Ok (o, rs) -> Forall (eq None) rs ->
  field_bool c "check_convergence" = Ok cc -> field_real c "tol_rho_change" = Ok tr -> field_real c "tol_kkt_residual" = Ok tk ->
  field_int c "max_iters" = Ok m ->
  let meets s := cc = true /\ ls_change (cs_it s) < tr /\ Rabs (ls_kkt (cs_it s)) < tk in
  (exists pre i s, Driver_model.o_trace o = pre ++ [(i, s)] /\ meets s /\ Forall (fun e => ~ meets (snd e)) pre /\ In (i, s) (Driver_model.o_disk o)) \/
  (Forall (fun e => ~ meets (snd e)) (Driver_model.o_trace o) /\
   map fst (Driver_model.o_trace o) = Driver_model.zrange (match restart with Some (j, _) => (j + 1)%Z | None => 1%Z end) (m + 1)).
Proof.
  intros c t f restart cs o rs cc tr tk m Hrun Hok Hcc Htr Htk Hm meets.
  unfold logmoc_run in Hrun. destruct (lm_new c) as [[dc L]|] eqn:Hn; [|discriminate]. cbn [bind] in Hrun. apply ok_inj in Hrun.
  destruct (C99_settings_from_fields c dc L Hn) as (F1 & _ & F2 & F3 & F4 & _). rewrite Hm in F1. rewrite Hcc in F2. rewrite Htr in F3. rewrite Htk in F4.
  injection F1 as ->. injection F2 as ->. injection F3 as ->. injection F4 as ->.
  destruct (cfg_initialize _ c _ _ f restart) as [[s0 b]|e] eqn:Ei.
  2:{ exfalso. eapply failed_init_raises; [| |exact Hrun|exact Hok]; reflexivity. }
  destruct (cfg_initialize_inv _ _ _ _ _ _ _ _ Ei) as (Hb & _).
  destruct (Driver_props.C29_stops_at_first_converged_iteration _ _ _ _ _ _ _ _ _ _ _ Hrun Hok) as [(pre & i & s & T1 & _ & T2 & T3 & T4)|(T1 & T2)].
  - left. exists pre, i, s. split; [exact T1|]. split; [exact T2|]. split; [exact T3|exact T4].
  - right. split; [exact T1|]. now rewrite Hb in T2.
Qed.
Print Assumptions C99_stops_when_converged.

(* the first state of a run *)
Lemma cfg_start {S} (start : list R -> sfilter -> S) T c ic pb f restart m : schedules_ok c -> field_int c "max_iters" = Ok m -> (0 < m)%Z ->
  built_from T ic pb -> pins_known T ic -> (forall e, In e (ta_design T) -> (e < List.length (ta_t T))%nat) ->
  c_rho_min (i_oc ic) <= c_rho_max (i_oc ic) -> fits pb ic restart ->
  exists l rho r, cfg_initialize start c ic pb f restart = Ok (mkCS l (start rho (update_radius r f)), first_iteration restart) /\
    (1 <= first_iteration restart)%Z /\ densities_ok T ic rho /\ 0 < r /\
    (forall i, (0 <= i)%Z -> exists v, values_at l i = Ok v /\ good_values v).
Proof.
  intros S0 Hm Hm1 HT Hp Hdes Hrho Hfit.
  destruct (good_schedulers c m Hm Hm1 S0) as (l & Hl & Hval & Hexp & (v0 & Hv0) & (r & Hr & Hr0)).
  assert (Hinit : exists rho, initialize_density pb ic v0 (option_map snd restart) = Ok rho /\ densities_ok T ic rho).
  { destruct (initialize_density pb ic v0 (option_map snd restart)) as [rho|e] eqn:E.
    - exists rho. split; [reflexivity|]. refine (proj1 (C26_initial_densities T ic pb v0 (option_map snd restart) rho HT Hp Hdes Hrho _ E)).
      destruct restart as [[j data]|]; cbn [option_map snd]; [|discriminate]. intros d [= <-]. destruct (Hfit j data eq_refl) as (_ & _ & Hx). exact Hx.
    - exfalso. unfold initialize_density in E. destruct restart as [[j data]|]; cbn [option_map snd] in E; [|discriminate].
      destruct (Hfit j data eq_refl) as (_ & Hlen' & _). rewrite Hlen', Nat.eqb_refl in E. discriminate. }
  destruct Hinit as (rho & Hrho0 & Hok0). exists l, rho, r. split.
  { unfold cfg_initialize. rewrite Hl. cbn [bind]. rewrite Hm. cbn [bind]. rewrite export_ok; [|intros s i Hs Hi; apply Hexp; [exact Hs|apply Driver_proofs.in_zrange in Hi; lia]].
    cbn [bind]. rewrite Hv0. cbn [bind]. rewrite Hrho0. cbn [bind]. rewrite Hr. reflexivity. }
  split; [|split; [exact Hok0|split; [exact Hr0|exact Hval]]].
  unfold first_iteration. destruct restart as [[j data]|]; [|lia]. destruct (Hfit j data eq_refl) as (Hj & _). lia.
Qed.

(* where a run starts: fresh, every design element at the first value of the volume
   schedule, clipped to the bounds; restarted, at the densities of the checkpoint; the
   filter at the first value of the radius schedule *)
Lemma cfg_start_at {S} (start : list R -> sfilter -> S) T c ic pb f restart s0 b a1 b1 a2 b2 cf1 cf2 :
  built_from T ic pb -> pins_known T ic -> (forall e, In e (ta_design T) -> (e < List.length (ta_t T))%nat) ->
  c_rho_min (i_oc ic) <= c_rho_max (i_oc ic) -> fits pb ic restart ->
  fget c "vol_frac" = Some (FSched cf1) -> goes a1 b1 cf1 -> fget c "filter_radius" = Some (FSched cf2) -> goes a2 b2 cf2 ->
  cfg_initialize start c ic pb f restart = Ok (s0, b) ->
  exists rho, cs_it s0 = start rho (update_radius a2 f) /\ densities_ok T ic rho /\
    (restart = None -> b = 1%Z /\ forall e, designed T ic e -> nth e rho 0 = Rmin (Rmax a1 (c_rho_min (i_oc ic))) (c_rho_max (i_oc ic))) /\
    (forall j data, restart = Some (j, data) -> b = (j + 1)%Z /\ (NoDup (ta_design T) -> gather rho (d_design (pb_dom pb)) = data)).
Proof.
  intros HT Hp Hdes Hrho Hfit F1 G1 F2 G2 Hi.
  destruct (goes_value _ _ _ G1) as (c1 & s1 & E1 & _ & _ & _ & _ & y & Y & ->).
  destruct (goes_value _ _ _ G2) as (c2 & s2 & E2 & _ & x & X & -> & _).
  destruct (cfg_initialize_inv _ _ _ _ _ _ _ _ Hi) as (-> & _ & v0 & rho & r & Hv & Hd & Hr & ->).
  assert (I1 : initial_fraction c = Ok a1).
  { unfold initial_fraction, field_sched. rewrite F1, E1. cbn [bind]. destruct (Sched_model.c_init c1); [congruence|]. now rewrite Y. }
  assert (I2 : initial_radius c = Ok a2) by (unfold initial_radius, field_sched; rewrite F2, E2; cbn [bind]; now rewrite X).
  rewrite I1 in Hv. apply ok_inj in Hv. subst v0. rewrite I2 in Hr. apply ok_inj in Hr. subst r.
  assert (Hin : forall data, option_map snd restart = Some data -> forall x, In x data -> c_rho_min (i_oc ic) <= x <= c_rho_max (i_oc ic)).
  { destruct restart as [[j data]|]; [|discriminate]. cbn [option_map snd]. intros d [= <-]. exact (proj2 (proj2 (Hfit j data eq_refl))). }
  destruct (C26_initial_densities T ic pb a1 (option_map snd restart) rho HT Hp Hdes Hrho Hin Hd) as (D1 & D2 & D3).
  exists rho. split; [reflexivity|]. split; [exact D1|]. split.
  - intros ->. split; [reflexivity|]. exact (D2 eq_refl).
  - intros j data ->. split; [reflexivity|]. intros Hnd. exact (D3 data eq_refl Hnd).
Qed.

(* Where a LogMOC run starts, on elastic and heat tasks; its multiplier starts at the
   configured lambda_v (logmoc.py:70-88), also after a restart. *)
Theorem C99_start : forall t T c L f restart s0 b a1 b1 a2 b2 cf1 cf2,
  let pb := element_task t in
  built_from T (loop_cfg L) pb -> pins_known T (loop_cfg L) -> (forall e, In e (ta_design T) -> (e < List.length (ta_t T))%nat) ->
  m_rho_min (l_m L) <= m_rho_max (l_m L) -> fits pb (loop_cfg L) restart ->
  fget c "vol_frac" = Some (FSched cf1) -> goes a1 b1 cf1 -> fget c "filter_radius" = Some (FSched cf2) -> goes a2 b2 cf2 ->
  cfg_initialize (lm_start L) c (loop_cfg L) pb f restart = Ok (s0, b) ->
  densities_ok T (loop_cfg L) (ls_rho (cs_it s0)) /\ sf_radius (ls_filter (cs_it s0)) = a2 /\
  lambda_v (ls_opt (cs_it s0)) = m_lambda_init (l_m L) /\
  (restart = None -> b = 1%Z /\ forall e, designed T (loop_cfg L) e ->
     nth e (ls_rho (cs_it s0)) 0 = Rmin (Rmax a1 (m_rho_min (l_m L))) (m_rho_max (l_m L))) /\
  (forall j data, restart = Some (j, data) -> b = (j + 1)%Z /\ (NoDup (ta_design T) -> gather (ls_rho (cs_it s0)) (d_design (pb_dom pb)) = data)).
Proof.
  intros t T c L f restart s0 b a1 b1 a2 b2 cf1 cf2 pb HT Hp Hdes Hrho Hfit F1 G1 F2 G2 Hi.
  destruct (cfg_start_at _ T c _ pb f restart s0 b a1 b1 a2 b2 cf1 cf2 HT Hp Hdes Hrho Hfit F1 G1 F2 G2 Hi) as (rho & -> & H1 & H2 & H3).
  split; [exact H1|]. split; [reflexivity|]. split; [reflexivity|]. split; [exact H2|exact H3].
Qed.
Print Assumptions C99_start.

(* The same for OC on a heat task. *)
Theorem C100_start : forall T c ic P f restart s0 b a1 b1 a2 b2 cf1 cf2,
  built_from T ic (plain P) -> pins_known T ic -> (forall e, In e (ta_design T) -> (e < List.length (ta_t T))%nat) ->
  c_rho_min (i_oc ic) <= c_rho_max (i_oc ic) -> fits (plain P) ic restart ->
  fget c "vol_frac" = Some (FSched cf1) -> goes a1 b1 cf1 -> fget c "filter_radius" = Some (FSched cf2) -> goes a2 b2 cf2 ->
  cfg_initialize (fun rho f => mkIS rho f 0 0 None None) c ic (plain P) f restart = Ok (s0, b) ->
  densities_ok T ic (s_rho (cs_it s0)) /\ sf_radius (s_filter (cs_it s0)) = a2 /\
  (restart = None -> b = 1%Z /\ forall e, designed T ic e ->
     nth e (s_rho (cs_it s0)) 0 = Rmin (Rmax a1 (c_rho_min (i_oc ic))) (c_rho_max (i_oc ic))) /\
  (forall j data, restart = Some (j, data) -> b = (j + 1)%Z /\ (NoDup (ta_design T) -> gather (s_rho (cs_it s0)) (d_design (pb_dom (plain P))) = data)).
Proof.
  intros T c ic P f restart s0 b a1 b1 a2 b2 cf1 cf2 HT Hp Hdes Hrho Hfit F1 G1 F2 G2 Hi.
  destruct (cfg_start_at _ T c _ _ f restart s0 b a1 b1 a2 b2 cf1 cf2 HT Hp Hdes Hrho Hfit F1 G1 F2 G2 Hi) as (rho & -> & H1 & H2 & H3).
  split; [exact H1|]. split; [reflexivity|]. split; [exact H2|exact H3].
Qed.
Print Assumptions C100_start.

(* A sane configuration on a sound task, elastic or heat with any objective, runs from
   the beginning: no call raises, the run is completed by optimize(), every iteration
   keeps the densities within bounds, the fixed elements solid, the density change
   within the scheduled move limit and the multiplier within its bounds, and without
   early stopping every iteration up to max_iters takes place. *)
Theorem C99_fresh_run_succeeds : forall t T c dc L f restart cs,
  lm_new c = Ok (dc, L) -> lm_sane c dc L -> made_from t T L -> (exists e, designed T (loop_cfg L) e) -> sound_any t T L f ->
  fits (element_task t) (loop_cfg L) restart -> (forall j data, restart = Some (j, data) -> j = 0%Z) ->
  exists o rs, logmoc_run c t f restart (cs ++ [Driver_model.COptimize]) = Ok (o, rs) /\
    Forall (eq None) rs /\ Driver_model.o_completed o = true /\
    (forall i s, In (i, s) (Driver_model.o_trace o) -> densities_ok T (loop_cfg L) (ls_rho (cs_it s)) /\
       m_lambda_lower (l_m L) <= lambda_v (ls_opt (cs_it s)) <= m_lambda_upper (l_m L) /\
       exists v, in_force c (Driver_model.max_iters dc) i v /\ ls_change (cs_it s) <= v_move v) /\
    (Driver_model.check_convergence dc = false -> map fst (Driver_model.o_trace o) = Driver_model.zrange 1 (Driver_model.max_iters dc + 1)).
Proof.
  intros t T c dc L f restart cs Hn S HM Hex Hsound Hfit Hj0. pose proof HM as (HT & Hp & Hdes).
  pose proof (lsn_records _ _ _ S) as Hrec. pose proof (lsn_rho _ _ _ S) as Hrho. pose proof (lsn_lambda _ _ _ S) as Hlam.
  destruct (cfg_start (lm_start L) T c (loop_cfg L) (element_task t) f restart (Driver_model.max_iters dc) (lsn_schedules _ _ _ S) (lm_new_max _ _ _ Hn)
    ltac:(lia) HT Hp Hdes (proj2 Hrho) Hfit) as (l & rho & r & Hi & Hb & Hok0 & Hr0 & Hval).
  assert (Hb1 : first_iteration restart = 1%Z) by (unfold first_iteration; destruct restart as [[j data]|]; [rewrite (Hj0 j data eq_refl)|]; reflexivity).
  rewrite Hb1 in *.
  set (s0 := mkCS l (lm_start L rho (update_radius r f))) in *.
  assert (Hl : init_schedulers c [] = Ok l) by (destruct (cfg_initialize_inv _ _ _ _ _ _ _ _ Hi) as (_ & Q & _); exact Q).
  set (Inv := fun (i : Z) (s : cstate lstate) => cs_sched s = l /\ densities_ok T (loop_cfg L) (ls_rho (cs_it s)) /\
     ((i <= 1)%Z \/ running_scale (ls_opt (cs_it s)) <> None) /\
     sf_centers (ls_filter (cs_it s)) = sf_centers f /\ sf_mask (ls_filter (cs_it s)) = sf_mask f /\
     ((1 < i)%Z -> m_lambda_lower (l_m L) <= lambda_v (ls_opt (cs_it s)) <= m_lambda_upper (l_m L) /\
        exists v, values_at l (i - 1) = Ok v /\ ls_change (cs_it s) <= v_move v)).
  assert (Hbody : forall i s, (1 <= i)%Z -> Inv i s -> exists s', cfg_body (lm_iterate t L) i s = (s', None) /\ Inv (i + 1)%Z s' /\ Driver_model.KVal (ls_kkt (cs_it s')) <> Driver_model.KNone).
  { intros i s Hi' (I1 & I2 & I3 & I4 & I5 & _). unfold cfg_body. rewrite I1. destruct (Hval i ltac:(lia)) as (v & Ev & Gp & Gb & Gm & Gr). rewrite Ev.
    destruct (C95_iteration_succeeds t T L v i (cs_it s) HM (ready_same t T L v f _ I4 I5 (Hsound v Gp Gb Gr)) Hrho I2 Hex I3) as (s' & Es & R1 & R2 & R3).
    rewrite Es. eexists. split; [reflexivity|]. split; [|discriminate]. unfold Inv. cbn [cs_sched cs_it].
    destruct (C95_iteration_keeps_bounds t T L v i (cs_it s) s' HM Hrho Hlam Gm I2 Es) as (K1 & _ & K2 & _ & _ & K3).
    split; [reflexivity|]. split; [exact K1|]. split; [now right|]. split; [congruence|]. split; [congruence|]. intros _. split; [exact K3|].
    exists v. split; [now replace (i + 1 - 1)%Z with i by lia|exact K2]. }
  assert (Inv0 : Inv 1%Z s0).
  { unfold Inv, s0. cbn [cs_sched cs_it lm_start ls_rho ls_filter ls_opt]. split; [reflexivity|]. split; [exact Hok0|]. split; [left; lia|]. split; [reflexivity|]. split; [reflexivity|lia]. }
  destruct (exec_all_smooth_i (cfg_body (lm_iterate t L)) (fun s => ls_change (cs_it s)) (fun s => Driver_model.KVal (ls_kkt (cs_it s))) dc Inv Hbody Hrec s0 1 Inv0 Hb
    (cs ++ [Driver_model.COptimize]) (Driver_model.opt_new [])) as (o & rs & Hexe & Hrs & Ho).
  { unfold fine_i, traced. cbn. split; [auto|easy]. }
  exists o, rs. unfold logmoc_run. rewrite Hn. cbn [bind]. rewrite Hi, Hexe. split; [reflexivity|]. split; [exact Hrs|].
  destruct (Driver_props.C28_iterations_once_in_order _ _ _ _ _ _ _ _ _ _ _ Hexe Hrs) as (Hch & _ & _ & _ & Hdone & _).
  split; [apply Hdone, in_or_app; right; now left|]. split.
  - intros i s Hs. pose proof Hs as Hs'. destruct Ho as (_ & Ho). apply Ho in Hs'. cbn [fst snd] in Hs'. destruct Hs' as (_ & K1 & _ & _ & _ & K2).
    assert (Hi1 : (1 <= i)%Z).
    { destruct (in_split _ _ Hs) as (pre & post & Htr). rewrite Htr in Hch. destruct (chain_app _ pre s0 1 i s post Hch) as (-> & _). lia. }
    destruct (K2 ltac:(lia)) as (K3 & v & Ev & K4). split; [exact K1|]. split; [exact K3|]. exists v. split; [|exact K4].
    replace (i + 1 - 1)%Z with i in Ev by lia. exact (values_in_force c l _ i v Hl (lm_new_max _ _ _ Hn) Ev).
  - intros Hoff. exact (Driver_props.C29_no_early_stop_when_unchecked _ _ _ _ _ _ _ _ _ _ _ Hoff Hexe Hrs).
Qed.
Print Assumptions C99_fresh_run_succeeds.

(* REFUTED: resuming.  A new LogMOC optimizer that finds a checkpoint of iteration j >= 1
   and has iterations left cannot perform any of them: every call of optimize() or
   optimize_steps(n > 0) raises AttributeError, however sound the task and configuration. *)
Theorem C99_restart_refuted : forall t T c dc L f j data cs,
  lm_new c = Ok (dc, L) -> lm_sane c dc L -> made_from t T L -> sound_any t T L f ->
  fits (element_task t) (loop_cfg L) (Some (j, data)) -> (1 <= j < Driver_model.max_iters dc)%Z ->
  exists o, logmoc_run c t f (Some (j, data)) cs = Ok (o, map (refused_with AttributeError) cs) /\
    Driver_model.o_trace o = [] /\ Driver_model.o_disk o = [] /\ Driver_model.o_completed o = false.
Proof.
  intros t T c dc L f j data cs Hn S HM Hsound Hfit Hj. pose proof HM as (HT & Hp & Hdes).
  pose proof (lsn_records _ _ _ S) as Hrec. pose proof (lsn_rho _ _ _ S) as Hrho.
  destruct (cfg_start (lm_start L) T c (loop_cfg L) (element_task t) f (Some (j, data)) (Driver_model.max_iters dc) (lsn_schedules _ _ _ S) (lm_new_max _ _ _ Hn)
    ltac:(lia) HT Hp Hdes (proj2 Hrho) Hfit) as (l & rho & r & Hi & Hb & Hok0 & Hr0 & Hval).
  set (s0 := mkCS l (lm_start L rho (update_radius r f))) in *. cbn [first_iteration] in *.
  assert (Hbody : cfg_body (lm_iterate t L) (j + 1) s0 = (s0, Some AttributeError)).
  { unfold cfg_body. cbn [s0 cs_sched cs_it]. destruct (Hval (j + 1)%Z ltac:(lia)) as (v & Ev & Gp & Gb & Gm & Gr). rewrite Ev.
    assert (HR : ready t T L v (update_radius r f)) by (apply (ready_same t T L v f); [reflexivity|reflexivity|exact (Hsound v Gp Gb Gr)]).
    pose proof (C95_resumed_run_refuted t T L v (j + 1) [] rho (update_radius r f) HM HR Hrho Hok0 ltac:(lia)) as Q.
    cbn [lm_optimize] in Q. destruct (lm_iterate t L v (j + 1) (lm_start L rho (update_radius r f))) as [s'|e]; [discriminate Q|]. cbn [bind] in Q. now injection Q as ->. }
  destruct (exec_all_stuck (cfg_body (lm_iterate t L)) (fun s => ls_change (cs_it s)) (fun s => Driver_model.KVal (ls_kkt (cs_it s))) dc s0 (j + 1) AttributeError Hbody ltac:(lia)
    cs (Driver_model.opt_new [])) as (o & rs & Hexe & (H1 & H2 & H3 & _) & ->).
  { unfold stuck. cbn. auto. }
  exists o. unfold logmoc_run. rewrite Hn. cbn [bind]. rewrite Hi, Hexe. auto.
Qed.
Print Assumptions C99_restart_refuted.

(* The default LogMOC configuration with the spatial filter is sane. *)
Definition lm_default_with (dd : bool) (em : R) : cfgobj :=
  with_field (with_field (with_field lm_defaults "filter_type" (FPlain (PStr "spacial"))) "design_dirichlet" (FPlain (PBool dd))) "E_min_coeff" (FPlain (PFloat em)).
Definition lm_default_L (dd : bool) (em : R) : lcfg :=
  mkLC (mkLM (1/100) 1 (1/2) 5 0 (1/10) (9/10) (-10000000) 10000000 1 95 (1/100000000) false 95 (1/100000000) 1 None false false false false) em SIMP false dd.
Lemma lm_default_new dd em : lm_new (lm_default_with dd em) = Ok (Driver_model.mkDC 200 20 false (2/10) (5/1000), lm_default_L dd em).
Proof.
  unfold lm_new, field_real, field_bool, field_int, field_interp, field_gain_under, field_augmented, lm_default_with, lm_defaults. cbn -[fsched]. reflexivity.
Qed.
Theorem C99_default_config_is_sane : forall dd em, exists dc L, lm_new (lm_default_with dd em) = Ok (dc, L) /\ lm_sane (lm_default_with dd em) dc L /\
  Driver_model.max_iters dc = 200%Z /\ Driver_model.check_convergence dc = false /\ l_design_dirichlet L = dd /\ l_Emin_coeff L = em /\
  m_augmented (l_m L) = false /\ m_mu_p (l_m L) = 5 /\ m_decay (l_m L) = 9/10 /\ m_lambda_lower (l_m L) = - m_lambda_upper (l_m L) /\
  fget (lm_default_with dd em) "eta" = Some (FPlain (PFloat (6/10))).
Proof.
  intros dd em. do 2 eexists. split; [apply lm_default_new|]. split; [|cbn; repeat split; lra]. constructor.
  - constructor.
    + eexists. exists 1, 3. split; [reflexivity|]. split; [apply g_step|]. lra.
    + eexists. exists (8/10), (8/10). split; [reflexivity|]. split; [now apply g_constant|]. auto.
    + eexists. exists 1, 2. split; [reflexivity|]. split; [apply g_curved; [now left|lra]|]. lra.
    + eexists. exists (3/10), (1/10). split; [reflexivity|]. split; [now apply g_saw|]. lra.
    + eexists. exists (1/100), (1/100). split; [reflexivity|]. split; [now apply g_constant|]. lra.
    + split; [eexists; exists 1, 1; split; [reflexivity|]; split; [now apply g_one|auto]|]. eexists. split; [reflexivity|]. now left.
    + right. eexists. reflexivity.
    + right. eexists. split; [reflexivity|]. split; reflexivity.
  - cbn. lia.
  - cbn. lra.
  - cbn. lra.
Qed.
Print Assumptions C99_default_config_is_sane.

(* an elastic task: seven steps, then the rest; and a resumed run *)
Lemma lm_ex_made : made_from (Elastic ex_pb) ex_T (lm_default_L true (1/1000)).
Proof. split; [exact ex_built|]. split; [left; discriminate|]. intros e [<-|[<-|[]]]; cbn; lia. Qed.
Lemma lm_ex_sound : sound_any (Elastic ex_pb) ex_T (lm_default_L true (1/1000)) ex_filter.
Proof.
  intros v Hp Hb Hr. split; [exact ex_built|]. split; [left; discriminate|]. split; [|split; [reflexivity|discriminate]].
  constructor; cbn; try lra.
  - reflexivity. - exists 0%nat. split; [lia|reflexivity]. - intros; lra. - discriminate. - apply ex_solver.
Qed.
Example C99_elastic_instance : let t := Elastic ex_pb in let c := lm_default_with true (1/1000) in
  (exists o rs, logmoc_run c t ex_filter None [Driver_model.CSteps 7; Driver_model.COptimize] = Ok (o, rs) /\ Forall (eq None) rs /\
     Driver_model.o_completed o = true /\ map fst (Driver_model.o_trace o) = Driver_model.zrange 1 201 /\
     forall i s, In (i, s) (Driver_model.o_trace o) -> densities_ok ex_T (loop_cfg (lm_default_L true (1/1000))) (ls_rho (cs_it s))) /\
  exists o, logmoc_run c t ex_filter (Some (100%Z, [1/2])) [Driver_model.CSteps 0; Driver_model.CSteps 1; Driver_model.COptimize] =
     Ok (o, [None; Some AttributeError; Some AttributeError]) /\ Driver_model.o_trace o = [].
Proof.
  cbv zeta. destruct (C99_default_config_is_sane true (1/1000)) as (dc & L & Hn & S & _). pose proof Hn as Hn'. rewrite lm_default_new in Hn'. injection Hn' as <- <-.
  split.
  - destruct (C99_fresh_run_succeeds (Elastic ex_pb) ex_T _ _ _ ex_filter None [Driver_model.CSteps 7] Hn S lm_ex_made) as (o & rs & R & Hrs & Hdone & Hd & Hall).
    + exists 0%nat. apply ex_designs. reflexivity.
    + exact lm_ex_sound.
    + intros j data [=].
    + intros j data [=].
    + exists o, rs. split; [exact R|]. split; [exact Hrs|]. split; [exact Hdone|]. split; [exact (Hall eq_refl)|]. intros i s Hs. exact (proj1 (Hd i s Hs)).
  - destruct (C99_restart_refuted (Elastic ex_pb) ex_T _ _ _ ex_filter 100 [1/2] [Driver_model.CSteps 0; Driver_model.CSteps 1; Driver_model.COptimize] Hn S lm_ex_made lm_ex_sound) as (o & R & Ht & _).
    + intros j data [= <- <-]. split; [lia|]. split; [change (element_task (Elastic ex_pb)) with ex_pb; change (pb_dom ex_pb) with ex_dom; now rewrite ex_dom_eq|].
      intros x [<-|[]]. cbn. lra.
    + cbn. lia.
    + exists o. split; [exact R|exact Ht].
Qed.
Print Assumptions C99_elastic_instance.

(* the heat problem of C94, any objective, prescribed and ambient temperature *)
Lemma row_sound obj g ic : i_oc ic = i_oc (loop_cfg (lm_default_L false (1/100))) \/ i_oc ic = default_oc ->
  sound_heat (row_hs obj) [0%nat] (Flt g) ic row_f.
Proof.
  intros Hic v Hp Hb Hr. destruct (row_ready obj g) as [R1 R2 R3 R4 R5 R6 R7 R8 R9]. constructor; auto.
  - destruct R1 as (A1 & A2 & A3 & A4). split; [exact A1|]. split; [exact A2|]. split; [|exact A4].
    destruct A3. constructor; auto; cbn [with_p hs_p] in *; lra.
  - destruct Hic as [-> | ->]; cbn; lra.
Qed.
Lemma lm_row_problem obj g A : heat_problem row_T (row_hs obj) A (Flt g) (loop_cfg (lm_default_L false (1/100))) (row_P obj g A).
Proof. exact (row_problem obj g A). Qed.
Example C99_heat_instance : forall obj g A, let t := HeatTask (row_P obj g A) in
  exists o rs, logmoc_run (lm_default_with false (1/100)) t row_f None [Driver_model.CSteps 7; Driver_model.COptimize] = Ok (o, rs) /\ Forall (eq None) rs /\
     Driver_model.o_completed o = true /\ map fst (Driver_model.o_trace o) = Driver_model.zrange 1 201.
Proof.
  intros obj g A t. destruct (C99_default_config_is_sane false (1/100)) as (dc & L & Hn & S & _). pose proof Hn as Hn'. rewrite lm_default_new in Hn'. injection Hn' as <- <-.
  assert (HM : made_from t row_T (lm_default_L false (1/100))).
  { split; [exact (proj1 (row_problem obj g A))|]. split; [now right|]. exact (proj1 row_settings). }
  destruct (C99_fresh_run_succeeds t row_T _ _ _ row_f None [Driver_model.CSteps 7] Hn S HM) as (o & rs & R & Hrs & Hdone & _ & Hall).
  - exists 2%nat. now apply row_designed.
  - intros v Hp Hb Hr. split; [reflexivity|]. split; [cbn; lra|]. exists (row_hs obj), [0%nat], A, (Flt g). split; [exact (lm_row_problem obj g A)|].
    exact (row_sound obj g _ (or_introl eq_refl) v Hp Hb Hr).
  - intros j data [=].
  - intros j data [=].
  - exists o, rs. split; [exact R|]. split; [exact Hrs|]. split; [exact Hdone|]. exact (Hall eq_refl).
Qed.
Print Assumptions C99_heat_instance.

(* ---------------- OC on heat tasks ---------------- *)
Theorem C100_values_as_configured : forall c P f restart cs o rs dc ic,
  oc_new c = Ok (dc, ic) -> heat_oc_run c P f restart cs = Ok (o, rs) -> Forall (eq None) rs ->
  let begin := match restart with Some (j, _) => (j + 1)%Z | None => 1%Z end in
  forall pre i s post, Driver_model.o_trace o = pre ++ (i, s) :: post ->
  i = (begin + Z.of_nat (List.length pre))%Z /\ (i <= Driver_model.max_iters dc)%Z /\
  exists s0 v, cfg_initialize (fun rho f => mkIS rho f 0 0 None None) c ic (plain P) f restart = Ok (s0, begin) /\
    in_force c (Driver_model.max_iters dc) i v /\
    heat_iterate P ic v i (cs_it (Driver_spec.final_state s0 pre)) = Ok (cs_it s) /\
    sf_radius (s_filter (cs_it s)) = v_radius v.
Proof.
  intros c P f restart cs o rs dc ic Hn Hrun Hok begin pre i s post Htr.
  unfold heat_oc_run in Hrun. rewrite Hn in Hrun. cbn [bind] in Hrun. apply ok_inj in Hrun.
  destruct (cfg_values _ _ _ _ _ _ _ _ _ _ _ _ _ (oc_new_max _ _ _ Hn) Hrun Hok pre i s post Htr) as (H1 & H2 & s0 & v & H3 & H4 & H5).
  split; [exact H1|]. split; [exact H2|]. exists s0, v. split; [exact H3|]. split; [exact H4|]. split; [exact H5|].
  now apply heat_iterate_radius in H5.
Qed.
Print Assumptions C100_values_as_configured.

(* A sane configuration on a sound heat task whose objective is not the compliance runs,
   fresh or restarted: no call raises, the run is completed, the densities keep their
   bounds, each iteration its move limit, and without early stopping every iteration up
   to max_iters takes place. *)
Theorem C100_sane_run_succeeds : forall T s D A values c dc ic P f restart cs,
  oc_new c = Ok (dc, ic) -> sane c dc ic -> heat_problem T s A values ic P -> hs_obj s <> Compliance ->
  i_design_dirichlet ic = false -> (forall e, In e (ta_design T) -> (e < List.length (ta_t T))%nat) ->
  c_rho_max (i_oc ic) <= 1 -> sound_heat s D values ic f -> fits (plain P) ic restart ->
  exists o rs, heat_oc_run c P f restart (cs ++ [Driver_model.COptimize]) = Ok (o, rs) /\
    Forall (eq None) rs /\ Driver_model.o_completed o = true /\
    (forall i st, In (i, st) (Driver_model.o_trace o) -> densities_ok T ic (s_rho (cs_it st)) /\
       exists v, in_force c (Driver_model.max_iters dc) i v /\ s_change (cs_it st) <= v_move v) /\
    (Driver_model.check_convergence dc = false ->
     map fst (Driver_model.o_trace o) =
       Driver_model.zrange (match restart with Some (j, _) => (j + 1)%Z | None => 1%Z end) (Driver_model.max_iters dc + 1)).
Proof.
  intros T s D A values c dc ic P f restart cs Hn S HP Hob Hdd Hdes Hr1 Hsound Hfit. pose proof HP as (HT & _).
  pose proof (not_pinned_known T s A values ic P HP Hdd) as Hp.
  pose proof (sn_records _ _ _ S) as Hrec. pose proof (sn_rho _ _ _ S) as Hrho. pose proof (sn_rate _ _ _ S) as Hrate.
  pose proof (sn_floor _ _ _ S) as Hfl. pose proof (sn_lambda _ _ _ S) as Hl0. pose proof (oc_new_lambda c dc ic Hn) as Hlam.
  assert (Hset : oc_settings_ok T ic) by (unfold oc_settings_ok; repeat split; auto; lra).
  destruct (cfg_start (fun rho f => mkIS rho f 0 0 None None) T c ic (plain P) f restart (Driver_model.max_iters dc) (sn_schedules _ _ _ S) (oc_new_max _ _ _ Hn)
    ltac:(lia) HT Hp Hdes (proj2 Hrho) Hfit) as (l & rho & r & Hi & Hb & Hok0 & Hr0 & Hval).
  set (b := first_iteration restart) in *. change (match restart with Some (j, _) => (j + 1)%Z | None => 1%Z end) with b. clearbody b.
  set (s0 := mkCS l (mkIS rho (update_radius r f) 0 0 None None)) in *.
  assert (Hl : init_schedulers c [] = Ok l) by (destruct (cfg_initialize_inv _ _ _ _ _ _ _ _ Hi) as (_ & Q & _); exact Q).
  set (kk := fun s : cstate istate => match s_kkt (cs_it s) with Some k => Driver_model.KVal k | None => Driver_model.KNonFinite end).
  set (Inv := fun (i : Z) (s : cstate istate) => cs_sched s = l /\ densities_ok T ic (s_rho (cs_it s)) /\ 0 <= s_running (cs_it s) /\
     sf_centers (s_filter (cs_it s)) = sf_centers f /\ sf_mask (s_filter (cs_it s)) = sf_mask f /\
     ((b < i)%Z -> exists v, values_at l (i - 1) = Ok v /\ s_change (cs_it s) <= v_move v)).
  assert (Hbody : forall i s, (1 <= i)%Z -> Inv i s -> exists s', cfg_body (heat_iterate P ic) i s = (s', None) /\ Inv (i + 1)%Z s' /\ kk s' <> Driver_model.KNone).
  { intros i st Hi' (I1 & I2 & I3 & I4 & I5 & _). unfold cfg_body. rewrite I1. destruct (Hval i ltac:(lia)) as (v & Ev & Gp & Gb & Gm & Gr). rewrite Ev.
    destruct (C94_iteration_succeeds T s D A values ic P v i (cs_it st) HP Hob Hdd Hset (heat_ready_same _ _ _ _ _ _ _ I4 I5 (Hsound v Gp Gb Gr)) Gm I3 I2) as (s' & Es & R1 & (k & R2) & R3 & R4).
    rewrite Es. eexists. split; [reflexivity|]. split; [|unfold kk; cbn [cs_it]; rewrite R2; discriminate]. unfold Inv. cbn [cs_sched cs_it].
    destruct (C94_iteration_keeps_bounds T ic P v i (cs_it st) s' HT Hdd Hdes (proj2 Hrho) Hrate (Rlt_le _ _ Hlam) Gm I2 Es) as (K1 & _ & K2 & _).
    split; [reflexivity|]. split; [exact K1|]. split; [lra|]. split; [congruence|]. split; [congruence|]. intros _.
    exists v. split; [now replace (i + 1 - 1)%Z with i by lia|exact K2]. }
  assert (Inv0 : Inv b s0).
  { unfold Inv, s0. cbn [cs_sched cs_it s_rho s_filter s_running]. split; [reflexivity|]. split; [exact Hok0|]. split; [lra|]. split; [reflexivity|]. split; [reflexivity|lia]. }
  destruct (exec_all_smooth_i (cfg_body (heat_iterate P ic)) (fun s => s_change (cs_it s)) kk dc Inv Hbody Hrec s0 b Inv0 Hb
    (cs ++ [Driver_model.COptimize]) (Driver_model.opt_new [])) as (o & rs & Hexe & Hrs & Ho).
  { unfold fine_i, traced. cbn. split; [auto|easy]. }
  exists o, rs. unfold heat_oc_run. rewrite Hn. cbn [bind]. fold kk. rewrite Hi, Hexe. split; [reflexivity|]. split; [exact Hrs|].
  destruct (Driver_props.C28_iterations_once_in_order _ _ _ _ _ _ _ _ _ _ _ Hexe Hrs) as (Hch & _ & _ & _ & Hdone & _).
  split; [apply Hdone, in_or_app; right; now left|]. split.
  - intros i st Hs. pose proof Hs as Hs'. destruct Ho as (_ & Ho). apply Ho in Hs'. cbn [fst snd] in Hs'. destruct Hs' as (_ & K1 & _ & _ & _ & K2).
    assert (Hi1 : (b <= i)%Z).
    { destruct (in_split _ _ Hs) as (pre & post & Htr). rewrite Htr in Hch. destruct (chain_app _ pre s0 b i st post Hch) as (-> & _). lia. }
    destruct (K2 ltac:(lia)) as (v & Ev & K4). split; [exact K1|]. exists v. split; [|exact K4].
    replace (i + 1 - 1)%Z with i in Ev by lia. exact (values_in_force c l _ i v Hl (oc_new_max _ _ _ Hn) Ev).
  - intros Hoff. exact (Driver_props.C29_no_early_stop_when_unchecked _ _ _ _ _ _ _ _ _ _ _ Hoff Hexe Hrs).
Qed.
Print Assumptions C100_sane_run_succeeds.

Theorem C100_stops_when_converged : forall c P f restart cs o rs cc tr tk m,
  heat_oc_run c P f restart (cs ++ [Driver_model.COptimize]) = Ok (o, rs) -> Forall (eq None) rs ->
  field_bool c "check_convergence" = Ok cc -> field_real c "tol_rho_change" = Ok tr -> field_real c "tol_kkt_residual" = Ok tk ->
  field_int c "max_iters" = Ok m ->
  let meets s := cc = true /\ s_change (cs_it s) < tr /\ forall k, s_kkt (cs_it s) = Some k -> Rabs k < tk in
  (exists pre i s, Driver_model.o_trace o = pre ++ [(i, s)] /\ meets s /\ Forall (fun e => ~ meets (snd e)) pre /\ In (i, s) (Driver_model.o_disk o)) \/
  (Forall (fun e => ~ meets (snd e)) (Driver_model.o_trace o) /\
   map fst (Driver_model.o_trace o) = Driver_model.zrange (match restart with Some (j, _) => (j + 1)%Z | None => 1%Z end) (m + 1)).
Proof.
  intros c P f restart cs o rs cc tr tk m Hrun Hok Hcc Htr Htk Hm meets.
  unfold heat_oc_run in Hrun. destruct (oc_new c) as [[dc ic]|] eqn:Hn; [|discriminate]. cbn [bind] in Hrun. apply ok_inj in Hrun.
  destruct (C96_settings_from_fields c dc ic Hn) as (F1 & _ & F2 & F3 & F4 & _). rewrite Hm in F1. rewrite Hcc in F2. rewrite Htr in F3. rewrite Htk in F4.
  injection F1 as ->. injection F2 as ->. injection F3 as ->. injection F4 as ->.
  destruct (cfg_initialize _ c _ _ f restart) as [[s0 b]|e] eqn:Ei.
  2:{ exfalso. eapply failed_init_raises; [| |exact Hrun|exact Hok]; reflexivity. }
  destruct (cfg_initialize_inv _ _ _ _ _ _ _ _ Ei) as (Hb & _).
  set (kk := fun s : cstate istate => match s_kkt (cs_it s) with Some k => Driver_model.KVal k | None => Driver_model.KNonFinite end) in *.
  assert (Eq : forall s, Driver_spec.meets_criteria (fun s => s_change (cs_it s)) kk dc s <-> meets s).
  { intros s. unfold Driver_spec.meets_criteria, meets, kk. destruct (s_kkt (cs_it s)) as [k|]; [|intuition discriminate].
    split; intros (H1 & H2 & H3); (split; [exact H1|]; split; [exact H2|]); [intros k' [= <-]; exact H3|exact (H3 k eq_refl)]. }
  assert (Fa : forall l : list (Z * cstate istate), Forall (fun e => ~ Driver_spec.meets_criteria (fun s => s_change (cs_it s)) kk dc (snd e)) l -> Forall (fun e => ~ meets (snd e)) l).
  { intros l. apply Forall_impl. intros e. rewrite Eq. tauto. }
  destruct (Driver_props.C29_stops_at_first_converged_iteration _ _ _ _ _ _ _ _ _ _ _ Hrun Hok) as [(pre & i & s & T1 & _ & T2 & T3 & T4)|(T1 & T2)].
  - left. exists pre, i, s. split; [exact T1|]. split; [now apply Eq|]. split; [now apply Fa|exact T4].
  - right. split; [now apply Fa|]. now rewrite Hb in T2.
Qed.
Print Assumptions C100_stops_when_converged.

(* the default configuration (with the conductivity floor of the task) on the row *)
Definition heat_default : cfgobj := with_field (default_with false) "E_min_coeff" (FPlain (PFloat (1/100))).
Definition heat_ic : icfg := mkICfg default_oc (1/100) SIMP false false.
Lemma heat_default_new : oc_new heat_default = Ok (Driver_model.mkDC 200 20 false (2/10) (5/1000), heat_ic).
Proof.
  unfold oc_new, field_real, field_bool, field_int, field_interp, heat_default, default_with, default_spatial, oc_defaults.
  cbn -[Rltb fsched]. replace (Rltb (1/10000000) 10000000) with true; [reflexivity|]. symmetry. apply Rltb_true. lra.
Qed.
Lemma heat_default_sane : sane heat_default (Driver_model.mkDC 200 20 false (2/10) (5/1000)) heat_ic.
Proof.
  constructor.
  - constructor.
    + eexists. exists 1, 3. split; [reflexivity|]. split; [apply g_step|]. lra.
    + eexists. exists (8/10), (8/10). split; [reflexivity|]. split; [now apply g_constant|]. auto.
    + eexists. exists 1, 2. split; [reflexivity|]. split; [apply g_curved; [now left|lra]|]. lra.
    + eexists. exists (3/10), (1/10). split; [reflexivity|]. split; [now apply g_saw|]. lra.
    + eexists. exists (1/100), (1/100). split; [reflexivity|]. split; [now apply g_constant|]. lra.
    + split; [eexists; exists 1, 1; split; [reflexivity|]; split; [now apply g_one|auto]|]. eexists. split; [reflexivity|]. now left.
    + left. eexists. exists (1/2), (1/2). split; [reflexivity|]. split; [now apply g_constant|]. auto.
    + right. eexists. split; [reflexivity|]. split; reflexivity.
  - cbn. lia.
  - reflexivity.
  - cbn. lra.
  - cbn. lra.
  - cbn. lra.
  - cbn. lra.
Qed.
Example C100_instance : forall obj g A, obj <> Compliance ->
  exists o rs, heat_oc_run heat_default (row_P obj g A) row_f (Some (100%Z, [1/2])) [Driver_model.CSteps 7; Driver_model.COptimize] = Ok (o, rs) /\ Forall (eq None) rs /\
     Driver_model.o_completed o = true /\ map fst (Driver_model.o_trace o) = Driver_model.zrange 101 201.
Proof.
  intros obj g A Hob.
  destruct (C100_sane_run_succeeds row_T (row_hs obj) [0%nat] A (Flt g) heat_default _ heat_ic (row_P obj g A) row_f (Some (100%Z, [1/2])) [Driver_model.CSteps 7]
    heat_default_new heat_default_sane) as (o & rs & R & Hrs & Hdone & _ & Hall).
  - exact (row_problem obj g A).
  - exact Hob.
  - reflexivity.
  - exact (proj1 row_settings).
  - cbn. lra.
  - apply row_sound. now right.
  - intros j data [= <- <-]. split; [lia|]. split; [reflexivity|]. intros x [<-|[]]. cbn. lra.
  - exists o, rs. split; [exact R|]. split; [exact Hrs|]. split; [exact Hdone|]. exact (Hall eq_refl).
Qed.
Print Assumptions C100_instance.
