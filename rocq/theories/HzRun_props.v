(* C103: whole runs with the default filter type, from a configuration object. *)
From Verif Require Import Base Sums LinAlg Sched_spec OC_model OC_spec LogMOC_model LogMOC_props Filter_proofs Material_model Material_proofs Filter_model Helmholtz_model Helmholtz_props HzRange_spec HzRange_props
  Mesh_model Fea_model Iter_model Iter_spec Iter_proofs Iter_props
  Heat_model Heat_spec HeatAdj_model HeatIter_model HeatIter_spec HeatIter_props LMIter_model LMIter_spec LMIter_props
  HzIter_model HzIter_spec HzIter_proofs HzIter_props
  Run_model Run_spec Run_proofs Run_props LRun_model LRun_spec LRun_proofs LRun_props HzRun_model HzRun_spec.
From Verif Require Sched_model Config_model Driver_model Driver_spec Driver_proofs Driver_props.
Import Config_model.
Open Scope string_scope.
Open Scope R_scope.
Open Scope list_scope.

(* a mesh coarse for r0 is coarse for every larger radius *)
Lemma coarse_from m r0 r : shape_functions m -> 0 < r0 <= r -> coarse m r0 -> coarse m r.
Proof.
  intros (Hs & _) Hr H i j Hi Hj Hn. specialize (H i j Hi Hj Hn). specialize (Hs i j).
  assert (K : m_K m i j <= 0).
  { destruct (Rle_or_lt (m_K m i j) 0) as [Q|Q]; [exact Q|]. assert (0 < r0 * r0 * m_K m i j) by (apply Rmult_lt_0_compat; nra). lra. }
  assert (r0 * r0 <= r * r) by nra. nra.
Qed.
Lemma sound_ready f n r0 r : sound_filter f n r0 -> r0 <= r -> filter_ready f n r.
Proof.
  intros (H0 & (A1 & A2 & A3 & A4 & A5 & _) & S) Hr. repeat (split; [assumption|]). split; [|intros; now apply S].
  apply (coarse_from _ r0); [exact A4|lra|exact A5].
Qed.
Lemma ready_other f g n r : hz_mesh f = hz_mesh g -> hz_solve f = hz_solve g -> filter_ready g n r -> filter_ready f n r.
Proof. unfold filter_ready. intros -> ->. auto. Qed.
(* the scheduled radius *)
Lemma radius_in_force c m i v r0 : (0 < m)%Z -> (0 <= i)%Z -> radius_from c r0 -> in_force c m i v -> r0 <= v_radius v.
Proof.
  intros Hm Hi (cf & a & b & E & G & Ha & Hb) (_ & _ & _ & _ & _ & _ & _ & (cf1 & cf' & s & E1 & F & V)).
  assert (cf1 = cf) by congruence. subst cf1. destruct (goes_value a b cf G) as (cf2 & s2 & F2 & B & _).
  assert (s2 = s) by congruence. subst s2. destruct (B m i Hm Hi) as (x & Vx & (Bx & _)). assert (x = v_radius v) by congruence. subst x.
  revert Bx. unfold Rmin. destruct (Rle_dec a b); lra.
Qed.

(* ---------------- the choice of the filter ---------------- *)
(* a configuration with any other filter type is refused when the filter is built: no
   iteration takes place *)
Theorem C103_unknown_filter_refused : forall c t f restart cs dc ic s, oc_new c = Ok (dc, ic) ->
  fget c "filter_type" = Some (FPlain (PStr s)) -> s <> "spacial" -> s <> "helmholtz" ->
  hz_oc_run c t f restart cs = Err ValueError.
Proof.
  intros c t f restart cs dc ic s Hn Hs H1 H2. unfold hz_oc_run. rewrite Hn. cbn [bind]. unfold parameterize. rewrite Hs.
  apply String.eqb_neq in H1, H2. now rewrite H1, H2.
Qed.
Print Assumptions C103_unknown_filter_refused.

(* ---------------- OC ---------------- *)
Theorem C103_oc_values_as_configured : forall c t f restart cs o rs dc ic,
  oc_new c = Ok (dc, ic) -> hz_oc_run c t f restart cs = Ok (o, rs) -> Forall (eq None) rs ->
  let begin := match restart with Some (j, _) => (j + 1)%Z | None => 1%Z end in
  forall pre i s post, Driver_model.o_trace o = pre ++ (i, s) :: post ->
  i = (begin + Z.of_nat (List.length pre))%Z /\ (i <= Driver_model.max_iters dc)%Z /\
  exists s0 v, cfg_initialize (hz_start f) c ic (element_task t) radius_only restart = Ok (s0, begin) /\
    in_force c (Driver_model.max_iters dc) i v /\
    hz_iterate t ic v i (cs_it (Driver_spec.final_state s0 pre)) = Ok (cs_it s) /\
    hz_radius (h_filter (cs_it s)) = v_radius v.
Proof.
  intros c t f restart cs o rs dc ic Hn Hrun Hok begin pre i s post Htr.
  unfold hz_oc_run in Hrun. rewrite Hn in Hrun. cbn [bind] in Hrun. destruct (parameterize c) as [[|]|]; try discriminate. cbn [bind] in Hrun. apply ok_inj in Hrun.
  destruct (cfg_values _ _ _ _ _ _ _ _ _ _ _ _ _ (oc_new_max _ _ _ Hn) Hrun Hok pre i s post Htr) as (H1 & H2 & s0 & v & H3 & H4 & H5).
  split; [exact H1|]. split; [exact H2|]. exists s0, v. split; [exact H3|]. split; [exact H4|]. split; [exact H5|].
  destruct (hz_iterate_inv _ _ _ _ _ _ H5) as (ev & _ & _ & -> & _). apply hz_at_eq.
Qed.
Print Assumptions C103_oc_values_as_configured.

(* Where a run starts: as C96_start, C99_start and C100_start. *)
Theorem C103_oc_start : forall t T c ic f restart s0 b a1 b1 a2 b2 cf1 cf2,
  let pb := element_task t in
  from_args t T ic -> c_rho_min (i_oc ic) <= c_rho_max (i_oc ic) -> fits pb ic restart ->
  fget c "vol_frac" = Some (FSched cf1) -> goes a1 b1 cf1 -> fget c "filter_radius" = Some (FSched cf2) -> goes a2 b2 cf2 ->
  cfg_initialize (hz_start f) c ic pb radius_only restart = Ok (s0, b) ->
  densities_ok T ic (h_rho (cs_it s0)) /\ h_filter (cs_it s0) = mkHZ (hz_mesh f) (hz_mask f) a2 (hz_solve f) /\
  (restart = None -> b = 1%Z /\ forall e, designed T ic e ->
     nth e (h_rho (cs_it s0)) 0 = Rmin (Rmax a1 (c_rho_min (i_oc ic))) (c_rho_max (i_oc ic))) /\
  (forall j data, restart = Some (j, data) -> b = (j + 1)%Z /\ (NoDup (ta_design T) -> gather (h_rho (cs_it s0)) (d_design (pb_dom pb)) = data)).
Proof.
  intros t T c ic f restart s0 b a1 b1 a2 b2 cf1 cf2 pb (HT & Hp & Hdes) Hrho Hfit F1 G1 F2 G2 Hi.
  destruct (cfg_start_at _ T c _ pb radius_only restart s0 b a1 b1 a2 b2 cf1 cf2 HT Hp Hdes Hrho Hfit F1 G1 F2 G2 Hi) as (rho & -> & H1 & H2 & H3).
  split; [exact H1|]. split; [reflexivity|]. split; [exact H2|exact H3].
Qed.
Print Assumptions C103_oc_start.
Theorem C103_lm_start : forall t T c L f restart s0 b a1 b1 a2 b2 cf1 cf2,
  let pb := element_task t in
  from_args t T (loop_cfg L) -> m_rho_min (l_m L) <= m_rho_max (l_m L) -> fits pb (loop_cfg L) restart ->
  fget c "vol_frac" = Some (FSched cf1) -> goes a1 b1 cf1 -> fget c "filter_radius" = Some (FSched cf2) -> goes a2 b2 cf2 ->
  cfg_initialize (hz_lm_start L f) c (loop_cfg L) pb radius_only restart = Ok (s0, b) ->
  densities_ok T (loop_cfg L) (hl_rho (cs_it s0)) /\ hl_filter (cs_it s0) = mkHZ (hz_mesh f) (hz_mask f) a2 (hz_solve f) /\
  lambda_v (hl_opt (cs_it s0)) = m_lambda_init (l_m L) /\
  (restart = None -> b = 1%Z /\ forall e, designed T (loop_cfg L) e ->
     nth e (hl_rho (cs_it s0)) 0 = Rmin (Rmax a1 (m_rho_min (l_m L))) (m_rho_max (l_m L))) /\
  (forall j data, restart = Some (j, data) -> b = (j + 1)%Z /\ (NoDup (ta_design T) -> gather (hl_rho (cs_it s0)) (d_design (pb_dom pb)) = data)).
Proof.
  intros t T c L f restart s0 b a1 b1 a2 b2 cf1 cf2 pb (HT & Hp & Hdes) Hrho Hfit F1 G1 F2 G2 Hi.
  destruct (cfg_start_at _ T c _ pb radius_only restart s0 b a1 b1 a2 b2 cf1 cf2 HT Hp Hdes Hrho Hfit F1 G1 F2 G2 Hi) as (rho & -> & H1 & H2 & H3).
  split; [exact H1|]. split; [reflexivity|]. split; [reflexivity|]. split; [exact H2|exact H3].
Qed.
Print Assumptions C103_lm_start.

(* A sane configuration on a sound task, elastic or heat with any objective, runs, fresh
   or restarted: no call raises, the run is completed, the densities keep their bounds,
   each iteration its move limit, the filtered densities their range, and without early
   stopping every iteration up to max_iters takes place. *)
Theorem C103_oc_run_succeeds : forall t T c dc ic f r0 restart cs,
  oc_new c = Ok (dc, ic) -> sane_default c dc ic -> radius_from c r0 -> from_args t T ic -> sound_default t T ic ->
  sound_filter f (List.length (ta_t T)) r0 -> fits (element_task t) ic restart ->
  exists o rs, hz_oc_run c t f restart (cs ++ [Driver_model.COptimize]) = Ok (o, rs) /\
    Forall (eq None) rs /\ Driver_model.o_completed o = true /\
    (forall i st, In (i, st) (Driver_model.o_trace o) -> densities_ok T ic (h_rho (cs_it st)) /\
       (exists v, in_force c (Driver_model.max_iters dc) i v /\ h_change (cs_it st) <= v_move v) /\
       exists ev, h_eval (cs_it st) = Some ev /\ forall e, nth e (ev_dC ev) 0 <= 0 /\
         ((e < List.length (ta_t T))%nat -> 0 <= nth e (ev_filtered ev) 0 <= Rmax 1 (c_rho_max (i_oc ic)))) /\
    (Driver_model.check_convergence dc = false ->
     map fst (Driver_model.o_trace o) =
       Driver_model.zrange (match restart with Some (j, _) => (j + 1)%Z | None => 1%Z end) (Driver_model.max_iters dc + 1)).
Proof.
  intros t T c dc ic f r0 restart cs Hn S Hrad HA Hsound Hsf Hfit. pose proof HA as (HT & Hp & Hdes).
  pose proof (sd_records _ _ _ S) as Hrec. pose proof (sd_rho _ _ _ S) as Hrho. pose proof (sd_rate _ _ _ S) as Hrate.
  pose proof (sd_floor _ _ _ S) as Hfl. pose proof (sd_lambda _ _ _ S) as Hl0. pose proof (oc_new_lambda c dc ic Hn) as Hlam. pose proof (sd_plain _ _ _ S) as Hpl.
  destruct (cfg_start (hz_start f) T c ic (element_task t) radius_only restart (Driver_model.max_iters dc) (sd_schedules _ _ _ S) (oc_new_max _ _ _ Hn)
    ltac:(lia) HT Hp Hdes (proj2 Hrho) Hfit) as (l & rho & r & Hi & Hb & Hok0 & Hr0 & Hval).
  set (b := first_iteration restart) in *. change (match restart with Some (j, _) => (j + 1)%Z | None => 1%Z end) with b. clearbody b.
  set (s0 := mkCS l (hz_start f rho (update_radius r radius_only))) in *.
  assert (Hl : init_schedulers c [] = Ok l) by (destruct (cfg_initialize_inv _ _ _ _ _ _ _ _ Hi) as (_ & Q & _); exact Q).
  set (kk := fun s : cstate hstate => match h_kkt (cs_it s) with Some k => Driver_model.KVal k | None => Driver_model.KNonFinite end).
  set (Good := fun (i : Z) (s : hstate) => (exists v, values_at l i = Ok v /\ h_change s <= v_move v) /\
       exists ev, h_eval s = Some ev /\ forall e, nth e (ev_dC ev) 0 <= 0 /\
         ((e < List.length (ta_t T))%nat -> 0 <= nth e (ev_filtered ev) 0 <= Rmax 1 (c_rho_max (i_oc ic)))).
  set (Inv := fun (i : Z) (s : cstate hstate) => cs_sched s = l /\ densities_ok T ic (h_rho (cs_it s)) /\ 0 <= h_running (cs_it s) /\
     hz_mesh (h_filter (cs_it s)) = hz_mesh f /\ hz_solve (h_filter (cs_it s)) = hz_solve f /\
     ((b < i)%Z -> Good (i - 1)%Z (cs_it s))).
  assert (Hbody : forall i s, (1 <= i)%Z -> Inv i s -> exists s', cfg_body (hz_iterate t ic) i s = (s', None) /\ Inv (i + 1)%Z s' /\ kk s' <> Driver_model.KNone).
  { intros i st Hi' (I1 & I2 & I3 & I4 & I5 & _). unfold cfg_body. rewrite I1. destruct (Hval i ltac:(lia)) as (v & Ev & Gp & Gb & Gm & Gr). rewrite Ev.
    pose proof (values_in_force c l _ i v Hl (oc_new_max _ _ _ Hn) Ev) as Hv. pose proof (radius_in_force c (Driver_model.max_iters dc) i v r0 ltac:(lia) ltac:(lia) Hrad Hv) as Hrv.
    assert (HF : filter_ready (h_filter (cs_it st)) (List.length (ta_t T)) (v_radius v)) by (apply (ready_other _ f); auto; now apply (sound_ready _ _ r0)).
    destruct (C102_iteration_succeeds t T ic v i (cs_it st) HA (Hsound v Gp Gb Gr) HF Hpl Hrho Hrate Hfl (conj Hl0 (Rlt_le _ _ Hlam)) Gm I3 I2) as (s' & ev & Es & Eev & R1 & (k & R2) & R3 & _ & R4 & _ & R5).
    rewrite Es. eexists. split; [reflexivity|]. split; [|unfold kk; cbn [cs_it]; rewrite R2; discriminate]. unfold Inv. cbn [cs_sched cs_it].
    destruct (C102_iteration_keeps_bounds t T ic v i (cs_it st) s' HA (proj2 Hrho) Hrate (Rlt_le _ _ Hlam) Gm I2 Es) as (K1 & _ & K2 & _).
    split; [reflexivity|]. split; [exact K1|]. split; [lra|]. split; [congruence|]. split; [congruence|]. intros _. replace (i + 1 - 1)%Z with i by lia. split; [now exists v|].
    exists ev. split; [exact Eev|]. intros e. split; [|apply R5].
    refine (C102_sensitivities_nonpositive t ic v i (cs_it st) s' ev Hpl _ Es Eev e). destruct HF as (-> & _). now rewrite (proj1 I2). }
  assert (Inv0 : Inv b s0).
  { unfold Inv, s0. cbn [cs_sched cs_it hz_start h_rho h_filter h_running hz_update hz_mesh hz_solve]. split; [reflexivity|]. split; [exact Hok0|]. split; [lra|]. split; [reflexivity|]. split; [reflexivity|lia]. }
  destruct (exec_all_smooth_i (cfg_body (hz_iterate t ic)) (fun s => h_change (cs_it s)) kk dc Inv Hbody Hrec s0 b Inv0 Hb
    (cs ++ [Driver_model.COptimize]) (Driver_model.opt_new [])) as (o & rs & Hexe & Hrs & Ho).
  { unfold fine_i, traced. cbn. split; [auto|easy]. }
  exists o, rs. unfold hz_oc_run. rewrite Hn. cbn [bind]. unfold parameterize. rewrite (sd_type _ _ _ S). cbn [String.eqb Ascii.eqb Bool.eqb bind]. fold kk. rewrite Hi, Hexe.
  split; [reflexivity|]. split; [exact Hrs|].
  destruct (Driver_props.C28_iterations_once_in_order _ _ _ _ _ _ _ _ _ _ _ Hexe Hrs) as (Hch & _ & _ & _ & Hdone & _).
  split; [apply Hdone, in_or_app; right; now left|]. split.
  - intros i st Hs. pose proof Hs as Hs'. destruct Ho as (_ & Ho). apply Ho in Hs'. cbn [fst snd] in Hs'. destruct Hs' as (_ & K1 & _ & _ & _ & K2).
    assert (Hi1 : (b <= i)%Z).
    { destruct (in_split _ _ Hs) as (pre & post & Htr). rewrite Htr in Hch. destruct (chain_app _ pre s0 b i st post Hch) as (-> & _). lia. }
    destruct (K2 ltac:(lia)) as ((v & Ev & K4) & K5). split; [exact K1|]. split; [|exact K5]. exists v. split; [|exact K4].
    replace (i + 1 - 1)%Z with i in Ev by lia. exact (values_in_force c l _ i v Hl (oc_new_max _ _ _ Hn) Ev).
  - intros Hoff. exact (Driver_props.C29_no_early_stop_when_unchecked _ _ _ _ _ _ _ _ _ _ _ Hoff Hexe Hrs).
Qed.
Print Assumptions C103_oc_run_succeeds.

Theorem C103_oc_stops_when_converged : forall c t f restart cs o rs cc tr tk m,
  hz_oc_run c t f restart (cs ++ [Driver_model.COptimize]) = Ok (o, rs) -> Forall (eq None) rs ->
  field_bool c "check_convergence" = Ok cc -> field_real c "tol_rho_change" = Ok tr -> field_real c "tol_kkt_residual" = Ok tk ->
  field_int c "max_iters" = Ok m ->
  let meets s := cc = true /\ h_change (cs_it s) < tr /\ forall k, h_kkt (cs_it s) = Some k -> Rabs k < tk in
  (exists pre i s, Driver_model.o_trace o = pre ++ [(i, s)] /\ meets s /\ Forall (fun e => ~ meets (snd e)) pre /\ In (i, s) (Driver_model.o_disk o)) \/
  (Forall (fun e => ~ meets (snd e)) (Driver_model.o_trace o) /\
   map fst (Driver_model.o_trace o) = Driver_model.zrange (match restart with Some (j, _) => (j + 1)%Z | None => 1%Z end) (m + 1)).
Proof.
  intros c t f restart cs o rs cc tr tk m Hrun Hok Hcc Htr Htk Hm meets.
  unfold hz_oc_run in Hrun. destruct (oc_new c) as [[dc ic]|] eqn:Hn; [|discriminate]. cbn [bind] in Hrun.
  destruct (parameterize c) as [[|]|]; try discriminate. cbn [bind] in Hrun. apply ok_inj in Hrun.
  destruct (C96_settings_from_fields c dc ic Hn) as (F1 & _ & F2 & F3 & F4 & _). rewrite Hm in F1. rewrite Hcc in F2. rewrite Htr in F3. rewrite Htk in F4.
  injection F1 as ->. injection F2 as ->. injection F3 as ->. injection F4 as ->.
  destruct (cfg_initialize _ c _ _ _ restart) as [[s0 b]|e] eqn:Ei.
  2:{ exfalso. eapply failed_init_raises; [| |exact Hrun|exact Hok]; reflexivity. }
  destruct (cfg_initialize_inv _ _ _ _ _ _ _ _ Ei) as (Hb & _).
  set (kk := fun s : cstate hstate => match h_kkt (cs_it s) with Some k => Driver_model.KVal k | None => Driver_model.KNonFinite end) in *.
  assert (Eq : forall s, Driver_spec.meets_criteria (fun s => h_change (cs_it s)) kk dc s <-> meets s).
  { intros s. unfold Driver_spec.meets_criteria, meets, kk. destruct (h_kkt (cs_it s)) as [k|]; [|intuition discriminate].
    split; intros (H1 & H2 & H3); (split; [exact H1|]; split; [exact H2|]); [intros k' [= <-]; exact H3|exact (H3 k eq_refl)]. }
  assert (Fa : forall l : list (Z * cstate hstate), Forall (fun e => ~ Driver_spec.meets_criteria (fun s => h_change (cs_it s)) kk dc (snd e)) l -> Forall (fun e => ~ meets (snd e)) l).
  { intros l. apply Forall_impl. intros e. rewrite Eq. tauto. }
  destruct (Driver_props.C29_stops_at_first_converged_iteration _ _ _ _ _ _ _ _ _ _ _ Hrun Hok) as [(pre & i & s & T1 & _ & T2 & T3 & T4)|(T1 & T2)].
  - left. exists pre, i, s. split; [exact T1|]. split; [now apply Eq|]. split; [now apply Fa|exact T4].
  - right. split; [now apply Fa|]. now rewrite Hb in T2.
Qed.
Print Assumptions C103_oc_stops_when_converged.

(* The same for LogMOC. *)
Theorem C103_lm_stops_when_converged : forall c t f restart cs o rs cc tr tk m,
  hz_logmoc_run c t f restart (cs ++ [Driver_model.COptimize]) = Ok (o, rs) -> Forall (eq None) rs ->
  field_bool c "check_convergence" = Ok cc -> field_real c "tol_rho_change" = Ok tr -> field_real c "tol_kkt_residual" = Ok tk ->
  field_int c "max_iters" = Ok m ->
  let meets s := cc = true /\ hl_change (cs_it s) < tr /\ Rabs (hl_kkt (cs_it s)) < tk in
  (exists pre i s, Driver_model.o_trace o = pre ++ [(i, s)] /\ meets s /\ Forall (fun e => ~ meets (snd e)) pre /\ In (i, s) (Driver_model.o_disk o)) \/
  (Forall (fun e => ~ meets (snd e)) (Driver_model.o_trace o) /\
   map fst (Driver_model.o_trace o) = Driver_model.zrange (match restart with Some (j, _) => (j + 1)%Z | None => 1%Z end) (m + 1)).
Proof.
  intros c t f restart cs o rs cc tr tk m Hrun Hok Hcc Htr Htk Hm meets.
  unfold hz_logmoc_run in Hrun. destruct (lm_new c) as [[dc L]|] eqn:Hn; [|discriminate]. cbn [bind] in Hrun.
  destruct (parameterize c) as [[|]|]; try discriminate. cbn [bind] in Hrun. apply ok_inj in Hrun.
  destruct (C99_settings_from_fields c dc L Hn) as (F1 & _ & F2 & F3 & F4 & _). rewrite Hm in F1. rewrite Hcc in F2. rewrite Htr in F3. rewrite Htk in F4.
  injection F1 as ->. injection F2 as ->. injection F3 as ->. injection F4 as ->.
  destruct (cfg_initialize _ c _ _ _ restart) as [[s0 b]|e] eqn:Ei.
  2:{ exfalso. eapply failed_init_raises; [| |exact Hrun|exact Hok]; reflexivity. }
  destruct (cfg_initialize_inv _ _ _ _ _ _ _ _ Ei) as (Hb & _).
  destruct (Driver_props.C29_stops_at_first_converged_iteration _ _ _ _ _ _ _ _ _ _ _ Hrun Hok) as [(pre & i & s & T1 & _ & T2 & T3 & T4)|(T1 & T2)].
  - left. exists pre, i, s. split; [exact T1|]. split; [exact T2|]. split; [exact T3|exact T4].
  - right. split; [exact T1|]. now rewrite Hb in T2.
Qed.
Print Assumptions C103_lm_stops_when_converged.

(* ---------------- LogMOC ---------------- *)
Lemma hz_lm_iterate_radius t L v i s s' : hz_lm_iterate t L v i s = Ok s' -> hz_radius (hl_filter s') = v_radius v.
Proof.
  unfold hz_lm_iterate, hz_analyse. intros H. destruct (match t with Elastic pb => _ | HeatTask P => _ end) as [ev|]; [|discriminate]. cbn [bind] in H.
  unfold hz_lm_advance in H. destruct (lm_rho_update _ _ _) as [o|]; [|discriminate]. cbn [bind] in H.
  match type of H with Ok ?x = _ => assert (Q : s' = x) by congruence end. rewrite Q. cbn [hl_filter]. apply hz_at_eq.
Qed.
Theorem C103_lm_values_as_configured : forall c t f restart cs o rs dc L,
  lm_new c = Ok (dc, L) -> hz_logmoc_run c t f restart cs = Ok (o, rs) -> Forall (eq None) rs ->
  let begin := match restart with Some (j, _) => (j + 1)%Z | None => 1%Z end in
  forall pre i s post, Driver_model.o_trace o = pre ++ (i, s) :: post ->
  i = (begin + Z.of_nat (List.length pre))%Z /\ (i <= Driver_model.max_iters dc)%Z /\
  exists s0 v, cfg_initialize (hz_lm_start L f) c (loop_cfg L) (element_task t) radius_only restart = Ok (s0, begin) /\
    in_force c (Driver_model.max_iters dc) i v /\
    hz_lm_iterate t L v i (cs_it (Driver_spec.final_state s0 pre)) = Ok (cs_it s) /\
    hz_radius (hl_filter (cs_it s)) = v_radius v.
Proof.
  intros c t f restart cs o rs dc L Hn Hrun Hok begin pre i s post Htr.
  unfold hz_logmoc_run in Hrun. rewrite Hn in Hrun. cbn [bind] in Hrun. destruct (parameterize c) as [[|]|]; try discriminate. cbn [bind] in Hrun. apply ok_inj in Hrun.
  destruct (cfg_values _ _ _ _ _ _ _ _ _ _ _ _ _ (lm_new_max _ _ _ Hn) Hrun Hok pre i s post Htr) as (H1 & H2 & s0 & v & H3 & H4 & H5).
  split; [exact H1|]. split; [exact H2|]. exists s0, v. split; [exact H3|]. split; [exact H4|]. split; [exact H5|].
  now apply hz_lm_iterate_radius in H5.
Qed.
Print Assumptions C103_lm_values_as_configured.

Theorem C103_lm_fresh_run_succeeds : forall t T c dc L f r0 restart cs,
  lm_new c = Ok (dc, L) -> lm_sane_default c dc L -> radius_from c r0 -> from_args t T (loop_cfg L) -> sound_default t T (loop_cfg L) ->
  sound_filter f (List.length (ta_t T)) r0 ->
  fits (element_task t) (loop_cfg L) restart -> (forall j data, restart = Some (j, data) -> j = 0%Z) ->
  exists o rs, hz_logmoc_run c t f restart (cs ++ [Driver_model.COptimize]) = Ok (o, rs) /\
    Forall (eq None) rs /\ Driver_model.o_completed o = true /\
    (forall i s, In (i, s) (Driver_model.o_trace o) -> densities_ok T (loop_cfg L) (hl_rho (cs_it s)) /\
       m_lambda_lower (l_m L) <= lambda_v (hl_opt (cs_it s)) <= m_lambda_upper (l_m L) /\
       exists v, in_force c (Driver_model.max_iters dc) i v /\ hl_change (cs_it s) <= v_move v) /\
    (Driver_model.check_convergence dc = false -> map fst (Driver_model.o_trace o) = Driver_model.zrange 1 (Driver_model.max_iters dc + 1)).
Proof.
  intros t T c dc L f r0 restart cs Hn (Hty & S) Hrad HA Hsound Hsf Hfit Hj0. pose proof HA as (HT & Hp & Hdes).
  pose proof (lsn_records _ _ _ S) as Hrec. pose proof (lsn_rho _ _ _ S) as Hrho. pose proof (lsn_lambda _ _ _ S) as Hlam.
  destruct (cfg_start (hz_lm_start L f) T c (loop_cfg L) (element_task t) radius_only restart (Driver_model.max_iters dc) (lsn_schedules _ _ _ S) (lm_new_max _ _ _ Hn)
    ltac:(lia) HT Hp Hdes (proj2 Hrho) Hfit) as (l & rho & r & Hi & Hb & Hok0 & Hr0 & Hval).
  assert (Hb1 : first_iteration restart = 1%Z) by (unfold first_iteration; destruct restart as [[j data]|]; [rewrite (Hj0 j data eq_refl)|]; reflexivity).
  rewrite Hb1 in *.
  set (s0 := mkCS l (hz_lm_start L f rho (update_radius r radius_only))) in *.
  assert (Hl : init_schedulers c [] = Ok l) by (destruct (cfg_initialize_inv _ _ _ _ _ _ _ _ Hi) as (_ & Q & _); exact Q).
  set (Inv := fun (i : Z) (s : cstate hlstate) => cs_sched s = l /\ densities_ok T (loop_cfg L) (hl_rho (cs_it s)) /\
     ((i <= 1)%Z \/ running_scale (hl_opt (cs_it s)) <> None) /\
     hz_mesh (hl_filter (cs_it s)) = hz_mesh f /\ hz_solve (hl_filter (cs_it s)) = hz_solve f /\
     ((1 < i)%Z -> m_lambda_lower (l_m L) <= lambda_v (hl_opt (cs_it s)) <= m_lambda_upper (l_m L) /\
        exists v, values_at l (i - 1) = Ok v /\ hl_change (cs_it s) <= v_move v)).
  assert (Hbody : forall i s, (1 <= i)%Z -> Inv i s -> exists s', cfg_body (hz_lm_iterate t L) i s = (s', None) /\ Inv (i + 1)%Z s' /\ Driver_model.KVal (hl_kkt (cs_it s')) <> Driver_model.KNone).
  { intros i s Hi' (I1 & I2 & I3 & I4 & I5 & _). unfold cfg_body. rewrite I1. destruct (Hval i ltac:(lia)) as (v & Ev & Gp & Gb & Gm & Gr). rewrite Ev.
    pose proof (values_in_force c l _ i v Hl (lm_new_max _ _ _ Hn) Ev) as Hv. pose proof (radius_in_force c (Driver_model.max_iters dc) i v r0 ltac:(lia) ltac:(lia) Hrad Hv) as Hrv.
    assert (HF : filter_ready (hl_filter (cs_it s)) (List.length (ta_t T)) (v_radius v)) by (apply (ready_other _ f); auto; now apply (sound_ready _ _ r0)).
    destruct (C102_logmoc_succeeds t T L v i (cs_it s) HA (Hsound v Gp Gb Gr) HF Hrho I2 I3) as (s' & Es & R1 & R2 & _ & R3 & _).
    rewrite Es. eexists. split; [reflexivity|]. split; [|discriminate]. unfold Inv. cbn [cs_sched cs_it].
    destruct (C102_logmoc_keeps_bounds t T L v i (cs_it s) s' HA Hrho Hlam Gm I2 Es) as (K1 & _ & K2 & _ & _ & K3).
    split; [reflexivity|]. split; [exact K1|]. split; [now right|]. split; [congruence|]. split; [congruence|]. intros _. split; [exact K3|].
    exists v. split; [now replace (i + 1 - 1)%Z with i by lia|exact K2]. }
  assert (Inv0 : Inv 1%Z s0).
  { unfold Inv, s0. cbn [cs_sched cs_it hz_lm_start hl_rho hl_filter hl_opt hz_update hz_mesh hz_solve]. split; [reflexivity|]. split; [exact Hok0|]. split; [left; lia|]. split; [reflexivity|]. split; [reflexivity|lia]. }
  destruct (exec_all_smooth_i (cfg_body (hz_lm_iterate t L)) (fun s => hl_change (cs_it s)) (fun s => Driver_model.KVal (hl_kkt (cs_it s))) dc Inv Hbody Hrec s0 1 Inv0 Hb
    (cs ++ [Driver_model.COptimize]) (Driver_model.opt_new [])) as (o & rs & Hexe & Hrs & Ho).
  { unfold fine_i, traced. cbn. split; [auto|easy]. }
  exists o, rs. unfold hz_logmoc_run. rewrite Hn. cbn [bind]. unfold parameterize. rewrite Hty. cbn [String.eqb Ascii.eqb Bool.eqb bind]. rewrite Hi, Hexe. split; [reflexivity|]. split; [exact Hrs|].
  destruct (Driver_props.C28_iterations_once_in_order _ _ _ _ _ _ _ _ _ _ _ Hexe Hrs) as (Hch & _ & _ & _ & Hdone & _).
  split; [apply Hdone, in_or_app; right; now left|]. split.
  - intros i s Hs. pose proof Hs as Hs'. destruct Ho as (_ & Ho). apply Ho in Hs'. cbn [fst snd] in Hs'. destruct Hs' as (_ & K1 & _ & _ & _ & K2).
    assert (Hi1 : (1 <= i)%Z).
    { destruct (in_split _ _ Hs) as (pre & post & Htr). rewrite Htr in Hch. destruct (chain_app _ pre s0 1 i s post Hch) as (-> & _). lia. }
    destruct (K2 ltac:(lia)) as (K3 & v & Ev & K4). split; [exact K1|]. split; [exact K3|]. exists v. split; [|exact K4].
    replace (i + 1 - 1)%Z with i in Ev by lia. exact (values_in_force c l _ i v Hl (lm_new_max _ _ _ Hn) Ev).
  - intros Hoff. exact (Driver_props.C29_no_early_stop_when_unchecked _ _ _ _ _ _ _ _ _ _ _ Hoff Hexe Hrs).
Qed.
Print Assumptions C103_lm_fresh_run_succeeds.

(* REFUTED: resuming a LogMOC run, as C99 *)
Theorem C103_lm_restart_refuted : forall t T c dc L f r0 j data cs,
  lm_new c = Ok (dc, L) -> lm_sane_default c dc L -> radius_from c r0 -> from_args t T (loop_cfg L) -> sound_default t T (loop_cfg L) ->
  sound_filter f (List.length (ta_t T)) r0 ->
  fits (element_task t) (loop_cfg L) (Some (j, data)) -> (1 <= j < Driver_model.max_iters dc)%Z ->
  exists o, hz_logmoc_run c t f (Some (j, data)) cs = Ok (o, map (refused_with AttributeError) cs) /\
    Driver_model.o_trace o = [] /\ Driver_model.o_disk o = [] /\ Driver_model.o_completed o = false.
Proof.
  intros t T c dc L f r0 j data cs Hn (Hty & S) Hrad HA Hsound Hsf Hfit Hj. pose proof HA as (HT & Hp & Hdes).
  pose proof (lsn_records _ _ _ S) as Hrec. pose proof (lsn_rho _ _ _ S) as Hrho.
  destruct (cfg_start (hz_lm_start L f) T c (loop_cfg L) (element_task t) radius_only (Some (j, data)) (Driver_model.max_iters dc) (lsn_schedules _ _ _ S) (lm_new_max _ _ _ Hn)
    ltac:(lia) HT Hp Hdes (proj2 Hrho) Hfit) as (l & rho & r & Hi & Hb & Hok0 & Hr0 & Hval).
  assert (Hl : init_schedulers c [] = Ok l) by (destruct (cfg_initialize_inv _ _ _ _ _ _ _ _ Hi) as (_ & Q & _); exact Q).
  set (s0 := mkCS l (hz_lm_start L f rho (update_radius r radius_only))) in *. cbn [first_iteration] in *.
  assert (Hbody : cfg_body (hz_lm_iterate t L) (j + 1) s0 = (s0, Some AttributeError)).
  { unfold cfg_body. cbn [s0 cs_sched cs_it]. destruct (Hval (j + 1)%Z ltac:(lia)) as (v & Ev & Gp & Gb & Gm & Gr). rewrite Ev.
    pose proof (values_in_force c l _ (j + 1) v Hl (lm_new_max _ _ _ Hn) Ev) as Hv. pose proof (radius_in_force c (Driver_model.max_iters dc) (j + 1) v r0 ltac:(lia) ltac:(lia) Hrad Hv) as Hrv.
    set (s := hz_lm_start L f rho (update_radius r radius_only)).
    assert (HF : filter_ready (hl_filter s) (List.length (ta_t T)) (v_radius v)) by (apply (ready_other _ f); [reflexivity|reflexivity|]; now apply (sound_ready _ _ r0)).
    destruct (hz_analyse_ok t T (loop_cfg L) v (hl_filter s) (hl_rho s) HA (Hsound v Gp Gb Gr) HF (Rlt_le _ _ (proj1 Hrho)) Hok0) as (ev & nt & gs & E & _).
    unfold hz_lm_iterate. rewrite E. cbn [bind]. unfold hz_lm_advance. unfold lm_rho_update, lm_running. cbn [hz_lm_args la_iter s hz_lm_start hl_opt lm_init running_scale].
    rewrite (proj2 (Z.ltb_lt 1 (j + 1)) ltac:(lia)). reflexivity. }
  destruct (exec_all_stuck (cfg_body (hz_lm_iterate t L)) (fun s => hl_change (cs_it s)) (fun s => Driver_model.KVal (hl_kkt (cs_it s))) dc s0 (j + 1) AttributeError Hbody ltac:(lia)
    cs (Driver_model.opt_new [])) as (o & rs & Hexe & (H1 & H2 & H3 & _) & ->).
  { unfold stuck. cbn. auto. }
  exists o. unfold hz_logmoc_run. rewrite Hn. cbn [bind]. unfold parameterize. rewrite Hty. cbn [String.eqb Ascii.eqb Bool.eqb bind]. rewrite Hi, Hexe. auto.
Qed.
Print Assumptions C103_lm_restart_refuted.

(* ---------------- the default configuration objects ---------------- *)
(* OC_Config() and LogMOC_Config() as they are, but for design_dirichlet and E_min_coeff *)
Definition plain_oc (dd : bool) (em : R) : cfgobj := with_field (with_field oc_defaults "design_dirichlet" (FPlain (PBool dd))) "E_min_coeff" (FPlain (PFloat em)).
Definition plain_lm (dd : bool) (em : R) : cfgobj := with_field (with_field lm_defaults "design_dirichlet" (FPlain (PBool dd))) "E_min_coeff" (FPlain (PFloat em)).
Lemma plain_oc_new dd em : oc_new (plain_oc dd em) = Ok (Driver_model.mkDC 200 20 false (2/10) (5/1000), mkICfg default_oc em SIMP false dd).
Proof.
  unfold oc_new, field_real, field_bool, field_int, field_interp, plain_oc, oc_defaults.
  cbn -[Rltb fsched]. replace (Rltb (1/10000000) 10000000) with true; [reflexivity|]. symmetry. apply Rltb_true. lra.
Qed.
Lemma plain_lm_new dd em : lm_new (plain_lm dd em) = Ok (Driver_model.mkDC 200 20 false (2/10) (5/1000), lm_default_L dd em).
Proof.
  unfold lm_new, field_real, field_bool, field_int, field_interp, field_gain_under, field_augmented, plain_lm, lm_defaults. cbn -[fsched]. reflexivity.
Qed.
Theorem C103_default_config_is_sane : forall dd em,
  (exists dc ic, oc_new (plain_oc dd em) = Ok (dc, ic) /\ sane_default (plain_oc dd em) dc ic /\ radius_from (plain_oc dd em) (1/100) /\
     Driver_model.max_iters dc = 200%Z /\ Driver_model.check_convergence dc = false /\ i_design_dirichlet ic = dd /\ i_Emin_coeff ic = em) /\
  (exists dc L, lm_new (plain_lm dd em) = Ok (dc, L) /\ lm_sane_default (plain_lm dd em) dc L /\ radius_from (plain_lm dd em) (1/100) /\
     Driver_model.max_iters dc = 200%Z /\ Driver_model.check_convergence dc = false /\ l_design_dirichlet L = dd /\ l_Emin_coeff L = em).
Proof.
  intros dd em. split; do 2 eexists.
  - split; [apply plain_oc_new|]. split; [|split; [eexists; exists (1/100), (1/100); split; [reflexivity|]; split; [now apply g_constant|lra]|auto]].
    constructor; [reflexivity| | | | | | |].
    + constructor.
      * eexists. exists 1, 3. split; [reflexivity|]. split; [apply g_step|]. lra.
      * eexists. exists (8/10), (8/10). split; [reflexivity|]. split; [now apply g_constant|]. auto.
      * eexists. exists 1, 2. split; [reflexivity|]. split; [apply g_curved; [now left|lra]|]. lra.
      * eexists. exists (3/10), (1/10). split; [reflexivity|]. split; [now apply g_saw|]. lra.
      * eexists. exists (1/100), (1/100). split; [reflexivity|]. split; [now apply g_constant|]. lra.
      * split; [eexists; exists 1, 1; split; [reflexivity|]; split; [now apply g_one|auto]|]. eexists. split; [reflexivity|]. now left.
      * left. eexists. exists (1/2), (1/2). split; [reflexivity|]. split; [now apply g_constant|]. auto.
      * right. eexists. split; [reflexivity|]. split; reflexivity.
    + cbn. lia.
    + reflexivity.
    + cbn. lra.
    + cbn. lra.
    + cbn. lra.
    + cbn. lra.
  - split; [apply plain_lm_new|]. split; [|split; [eexists; exists (1/100), (1/100); split; [reflexivity|]; split; [now apply g_constant|lra]|auto]].
    split; [reflexivity|]. constructor.
    + constructor.
      * eexists. exists 1, 3. split; [reflexivity|]. split; [apply g_step|]. lra.
      * eexists. exists (8/10), (8/10). split; [reflexivity|]. split; [now apply g_constant|]. auto.
      * eexists. exists 1, 2. split; [reflexivity|]. split; [apply g_curved; [now left|lra]|]. lra.
      * eexists. exists (3/10), (1/10). split; [reflexivity|]. split; [now apply g_saw|]. lra.
      * eexists. exists (1/100), (1/100). split; [reflexivity|]. split; [now apply g_constant|]. lra.
      * split; [eexists; exists 1, 1; split; [reflexivity|]; split; [now apply g_one|auto]|]. eexists. split; [reflexivity|]. now left.
      * right. eexists. reflexivity.
      * right. eexists. split; [reflexivity|]. split; reflexivity.
    + cbn. lia.
    + cbn. lra.
    + cbn. lra.
Qed.
Print Assumptions C103_default_config_is_sane.

(* ---------------- instances ---------------- *)
(* the same rod with elements of length h *)
Definition scaled (h : R) (m : Helmholtz_model.mesh) : Helmholtz_model.mesh :=
  Helmholtz_model.mkMesh (m_nn m) (m_els m) (fun e => h * m_vol m e) (fun i j => h * m_M m i j) (fun i j => / h * m_K m i j).
Lemma scaled_mv h m (A : nat -> nat -> R) x i : Helmholtz_model.mv (scaled h m) (fun i j => h * A i j) x i = h * Helmholtz_model.mv m A x i.
Proof. unfold Helmholtz_model.mv. cbn [scaled m_nn]. rewrite <- rs_scal. apply rs_ext. intros; ring. Qed.
Lemma scaled_quad h m a (A : nat -> nat -> R) x : Helmholtz_props.quad (scaled h m) (fun i j => a * A i j) x = a * Helmholtz_props.quad m A x.
Proof.
  unfold Helmholtz_props.quad. cbn [scaled m_nn]. rewrite <- rs_scal. apply rs_ext. intros i _.
  replace (Helmholtz_model.mv _ (fun i j => a * A i j) x i) with (a * Helmholtz_model.mv m A x i); [ring|].
  unfold Helmholtz_model.mv. cbn [scaled m_nn]. rewrite <- rs_scal. apply rs_ext. intros; ring.
Qed.
Lemma scaled_sound h m mask n r : 0 < h -> 0 < r -> filter_ready (direct m mask (r / h)) n (r / h) -> sound_filter (direct (scaled h m) mask r) n r.
Proof.
  intros Hh Hr (A1 & (A2 & A2') & (A3 & A3' & A3'') & (A4 & A4') & A5 & _). cbn [direct hz_mesh] in *.
  assert (Hi : 0 < / h) by now apply Rinv_0_lt_compat.
  assert (F : fem_matrices (scaled h m)).
  { split; [|split].
    - intros x Hx. cbn [scaled m_M]. rewrite scaled_quad. apply Rmult_lt_0_compat; [exact Hh|now apply A3].
    - intros x. cbn [scaled m_K]. rewrite scaled_quad. apply Rmult_le_pos; [lra|apply A3'].
    - intros i Hi'. specialize (A3'' i Hi'). unfold Helmholtz_model.mv in *. cbn [scaled m_K m_nn].
      rewrite (rs_ext _ (fun j => / h * (m_K m i j * 1))) by (intros; ring). rewrite rs_scal, A3''. ring. }
  assert (S : forall r D bc b, Helmholtz_model.solves (scaled h m) r D bc b (hz_solve (direct (scaled h m) mask r) r D bc b)) by (intros; now apply solvable).
  split; [exact Hr|]. split; [|intros; now apply solvable].
  unfold filter_ready. cbn [direct hz_mesh]. split; [exact A1|]. split.
  { split; [|exact A2']. intros e He. destruct (A2 e He) as (B1 & B2 & B3). cbn [scaled m_vol]. split; [now apply Rmult_lt_0_compat|auto]. }
  split; [exact F|]. split.
  { split; [intros i j; cbn [scaled m_M]; apply Rmult_le_pos; [lra|apply A4]|intros i Hi'; cbn [scaled m_M]; apply Rmult_lt_0_compat; [exact Hh|now apply A4']]. }
  split; [|intros; now apply solvable].
  intros i j Hi' Hj Hn. specialize (A5 i j Hi' Hj Hn). cbn [scaled m_M m_K].
  replace (h * m_M m i j + r * r * (/ h * m_K m i j)) with (h * (m_M m i j + r / h * (r / h) * m_K m i j)) by (field; lra). nra.
Qed.
Lemma plain_from em : from_args (Elastic ex_pb) ex_T (mkICfg default_oc em SIMP false true).
Proof. exact (ex_from (mkICfg default_oc em SIMP false true) eq_refl). Qed.
Lemma plain_sound c : c_rho_max (i_oc c) <= 1 -> 0 <= c_beta_eta (i_oc c) <= 1 -> 1/1000 <= i_Emin_coeff c <= 1 -> 0 <= c_rho_min (i_oc c) -> sound_default (Elastic ex_pb) ex_T c.
Proof.
  intros H1 H2 H3 H4 v Hp Hb Hr. split; [|intros _; exact H1].
  constructor; cbn -[c_beta_eta]; try lra; try exact H2.
  all: try reflexivity; try discriminate; try apply ex_solver; try (intros; lra).
  exists 0%nat. split; [lia|reflexivity].
Qed.
Definition fine2 : hfilter := direct (scaled (1/50) rod2) ex_mask (1/100).
Definition fine3 : hfilter := direct (scaled (1/50) rod3) (Some [false; false; true]) (1/100).
Lemma fine2_sound : sound_filter fine2 2 (1/100).
Proof. apply scaled_sound; try lra. apply rod2_ready_from. lra. Qed.
Lemma fine3_sound : sound_filter fine3 3 (1/100).
Proof. apply scaled_sound; try lra. apply rod3_ready_from. lra. Qed.
(* OC_Config() and LogMOC_Config() on elements of length 1/50: elastic, resumed; heat, any
   objective, temperature and ambient temperature; LogMOC from the start and resumed *)
Example C103_instance :
  (exists o rs, hz_oc_run (plain_oc true (1/1000)) (Elastic ex_pb) fine2 (Some (100%Z, [1/2])) [Driver_model.CSteps 7; Driver_model.COptimize] = Ok (o, rs) /\
     Forall (eq None) rs /\ Driver_model.o_completed o = true /\ map fst (Driver_model.o_trace o) = Driver_model.zrange 101 201) /\
  (forall obj g A, exists o rs, hz_oc_run (plain_oc false (1/100)) (HeatTask (row_P obj g A)) fine3 None [Driver_model.CSteps 7; Driver_model.COptimize] = Ok (o, rs) /\
     Forall (eq None) rs /\ Driver_model.o_completed o = true /\ map fst (Driver_model.o_trace o) = Driver_model.zrange 1 201) /\
  (exists o rs, hz_logmoc_run (plain_lm true (1/1000)) (Elastic ex_pb) fine2 None [Driver_model.CSteps 7; Driver_model.COptimize] = Ok (o, rs) /\
     Forall (eq None) rs /\ Driver_model.o_completed o = true /\ map fst (Driver_model.o_trace o) = Driver_model.zrange 1 201) /\
  (exists o, hz_logmoc_run (plain_lm true (1/1000)) (Elastic ex_pb) fine2 (Some (100%Z, [1/2])) [Driver_model.CSteps 0; Driver_model.COptimize] = Ok (o, [None; Some AttributeError]) /\
     Driver_model.o_trace o = []).
Proof.
  assert (Fit : forall c : icfg, c_rho_min (i_oc c) = 1/100 -> c_rho_max (i_oc c) = 1 -> fits (element_task (Elastic ex_pb)) c (Some (100%Z, [1/2]))).
  { intros c E1 E2 j data [= <- <-]. split; [lia|]. split; [change (element_task (Elastic ex_pb)) with ex_pb; change (pb_dom ex_pb) with ex_dom; now rewrite ex_dom_eq|].
    intros x [<-|[]]. rewrite E1, E2. lra. }
  destruct (C103_default_config_is_sane true (1/1000)) as ((dc & ic & Hn & S & Hr & _) & (dc2 & L & Hn2 & S2 & Hr2 & _)).
  pose proof Hn as Q. rewrite plain_oc_new in Q. injection Q as <- <-. pose proof Hn2 as Q. rewrite plain_lm_new in Q. injection Q as <- <-.
  split; [|split; [|split]].
  - destruct (C103_oc_run_succeeds (Elastic ex_pb) ex_T _ _ _ fine2 (1/100) (Some (100%Z, [1/2])) [Driver_model.CSteps 7] Hn S Hr (plain_from _)) as (o & rs & R1 & R2 & R3 & _ & R4).
    + apply plain_sound; cbn; lra.
    + exact fine2_sound.
    + now apply Fit.
    + exists o, rs. split; [exact R1|]. split; [exact R2|]. split; [exact R3|]. exact (R4 eq_refl).
  - intros obj g A. destruct (C103_default_config_is_sane false (1/100)) as ((dc3 & ic3 & Hn3 & S3 & Hr3 & _) & _).
    pose proof Hn3 as Q. rewrite plain_oc_new in Q. injection Q as <- <-.
    assert (HP : heat_problem row_T (row_hs obj) A (Flt g) (mkICfg default_oc (1/100) SIMP false false) (row_P obj g A)).
    { destruct (row_problem obj g A) as (HT & HP). split; [exact HT|exact HP]. }
    destruct (C103_oc_run_succeeds (HeatTask (row_P obj g A)) row_T _ _ _ fine3 (1/100) None [Driver_model.CSteps 7] Hn3 S3 Hr3) as (o & rs & R1 & R2 & R3 & _ & R4).
    + split; [exact (proj1 HP)|]. split; [now right|]. intros e He. cbn in He. cbn. intuition lia.
    + intros v Hp Hb Hrv. split; [reflexivity|]. split; [cbn; lra|]. exists (row_hs obj), [0%nat], A, (Flt g). split; [exact HP|].
      pose proof (row_sound obj g (mkICfg default_oc (1/100) SIMP false false) (or_intror eq_refl) v Hp Hb Hrv) as K.
      destruct K. constructor; auto; try reflexivity. exists 0%nat. split; [cbn; lia|reflexivity].
    + exact fine3_sound.
    + intros j data [=].
    + exists o, rs. split; [exact R1|]. split; [exact R2|]. split; [exact R3|]. exact (R4 eq_refl).
  - destruct (C103_lm_fresh_run_succeeds (Elastic ex_pb) ex_T _ _ _ fine2 (1/100) None [Driver_model.CSteps 7] Hn2 S2 Hr2 (ex_from (loop_cfg (lm_default_L true (1/1000))) eq_refl)) as (o & rs & R1 & R2 & R3 & _ & R4).
    + apply plain_sound; cbn; lra.
    + exact fine2_sound.
    + intros j data [=].
    + intros j data [=].
    + exists o, rs. split; [exact R1|]. split; [exact R2|]. split; [exact R3|]. exact (R4 eq_refl).
  - destruct (C103_lm_restart_refuted (Elastic ex_pb) ex_T _ _ _ fine2 (1/100) 100 [1/2] [Driver_model.CSteps 0; Driver_model.COptimize] Hn2 S2 Hr2 (ex_from (loop_cfg (lm_default_L true (1/1000))) eq_refl)) as (o & R1 & R2 & _).
    + apply plain_sound; cbn; lra.
    + exact fine2_sound.
    + now apply Fit.
    + cbn. lia.
    + exists o. split; [exact R1|exact R2].
Qed.
Print Assumptions C103_instance.

(* REFUTED for small radii (as the default one on unit elements): with densities within
   their bounds the filtered density of an element can be negative (C101); with a penalty
   p that is not an integer the modulus of that element is NaN, which no model of the
   analysis survives: every iteration from there, on every elastic task with that mesh,
   fails, whatever linear solver is used. *)
Theorem C103_small_radius_refuted : forall pb ic v i f, hz_mesh f = row_mesh -> hz_mask f = row_mask ->
  (forall r D bc b, Helmholtz_model.solves row_mesh r D bc b (hz_solve f r D bc b)) ->
  v_radius v = 1/100 -> i_interp ic = SIMP -> 0 < v_beta v -> 0 <= c_beta_eta (i_oc ic) <= 1 -> (forall z, v_p v <> IZR z) ->
  hz_iterate (Elastic pb) ic v i (mkHSt [1; 1/100; 1/100] f 0 0 None None) = Err NotModelled.
Proof.
  intros pb ic v i f Em Ek Sv Hr Hi Hb He Hp. unfold hz_iterate, hz_analyse. cbn [h_filter h_rho].
  destruct (hz_at_eq v f) as (Em' & Ek' & Es' & Er'). set (g := hz_at v f) in *. rewrite Em in Em'. rewrite Ek in Ek'. rewrite Hr in Er'. clearbody g.
  set (rho := [1; 1/100; 1/100]).
  assert (FW : hz_forward row_mesh row_mask (1/100) (row_d (1/100)) (fun e => nth e (hz_fwd g rho) 0)).
  { exists (hz_solve f (1/100) (fixed_node row_mesh row_mask) 1 (Helmholtz_model.mv row_mesh (m_M row_mesh) (element_to_node row_mesh row_mask 1 (fun e => nth e rho 0)))).
    assert (EN : forall k, element_to_node row_mesh row_mask 1 (fun e => nth e rho 0) k = element_to_node row_mesh row_mask 1 (row_d (1/100)) k).
    { intros k. unfold element_to_node. f_equal. apply rs_ext. intros e He'. apply filter_In in He'. destruct He' as (He' & _). apply in_seq in He'.
      unfold n_els in He'. cbn in He'. destruct e as [|[|[|e]]]; try lia; reflexivity. }
    split.
    - intros k Hk. pose proof (Sv (1/100) (fixed_node row_mesh row_mask) 1 (Helmholtz_model.mv row_mesh (m_M row_mesh) (element_to_node row_mesh row_mask 1 (fun e => nth e rho 0))) k Hk) as E.
      destruct (fixed_node row_mesh row_mask k); [exact E|]. rewrite E. unfold Helmholtz_model.mv. apply rs_ext. intros j _. now rewrite EN.
    - intros e He'. unfold hz_fwd. rewrite Em', Ek', Er', Es'. now rewrite Filter_proofs.nth_map_seq' by exact He'. }
  pose proof (proj2 (proj2 (proj2 (proj2 C101_negative_density_refuted))) _ FW) as N. cbn beta in N.
  assert (M : forall E0 Emin, moduli SIMP E0 Emin (v_p v) (map (fun x => heaviside_projection x (v_beta v) (c_beta_eta (i_oc ic))) (hz_fwd g rho)) = Err NotModelled).
  { intros E0 Emin. unfold moduli. destruct (all_some _) as [l|] eqn:Ea; [exfalso|reflexivity]. apply all_some_inv in Ea. rewrite map_map in Ea.
    assert (L : List.length (hz_fwd g rho) = 3%nat) by (rewrite hz_fwd_len, Em'; reflexivity).
    assert (Q : nth 2 (map (fun x => modulus SIMP (heaviside_projection x (v_beta v) (c_beta_eta (i_oc ic))) E0 Emin (v_p v)) (hz_fwd g rho)) None <> None).
    { rewrite Ea. assert (Ll : List.length l = 3%nat) by (apply (f_equal (@List.length _)) in Ea; rewrite !map_length in Ea; congruence).
      destruct l as [|a [|b [|d [|? ?]]]]; try discriminate Ll. cbn. discriminate. }
    apply Q. destruct (hz_fwd g rho) as [|a [|b [|d [|? ?]]]]; try discriminate L. cbn [map nth] in N |- *. cbn [modulus].
    pose proof (H_increasing (v_beta v) (c_beta_eta (i_oc ic)) d 0 Hb He ltac:(lra)) as K. rewrite H_at_0 in K.
    unfold simp_interpolation, npow. destruct (Rlt_dec 0 _); [lra|]. destruct (Req_EM_T _ 0); [lra|]. destruct (Req_EM_T (v_p v) _) as [E|_]; [now apply Hp in E|reflexivity]. }
  unfold hz_evaluate. rewrite Hi, M. reflexivity.
Qed.
Print Assumptions C103_small_radius_refuted.
Example C103_small_radius_instance :
  let v := mkVals 1 (3/2) (4/10) 2 (1/10) (1/2) None (1/100) in
  hz_iterate (Elastic ex_pb) (mkICfg default_oc (1/1000) SIMP false true) v 1 (mkHSt [1; 1/100; 1/100] (direct row_mesh row_mask (1/100)) 0 0 None None) = Err NotModelled.
Proof.
  set (v := mkVals _ _ _ _ _ _ _ _). set (ic := mkICfg _ _ _ _ _). set (f := direct _ _ _). cbv zeta.
  refine (C103_small_radius_refuted ex_pb ic v 1 f eq_refl eq_refl _ eq_refl eq_refl _ _ _).
  - intros r D bc b. apply solvable. exact row_mesh_fem.
  - cbn. lra.
  - cbn. lra.
  - cbn [v_p v]. intros z E. assert (H : IZR (2 * z) = IZR 3) by (rewrite mult_IZR; lra). apply eq_IZR in H. lia.
Qed.
