(* C107 continued: with normalize_volume_chain=True the unit of the loads does not matter. *)
From Verif Require Import Base Sums Material_model OC_model OC_spec OC_proofs LogMOC_model LogMOC_proofs LogMOC_props Filter_model Filter_proofs Filter_props Mesh_model Fea_model Fea_spec
  Iter_model Iter_spec Iter_proofs Iter_props HeatIter_model HeatIter_spec HeatIter_props LMIter_model LMIter_spec LMIter_props Scale_model Scale_proofs HzSens_spec Units_spec Units_props.
Open Scope R_scope.
Open Scope list_scope.

Lemma heavier_ready F pb T L v f : ready (Elastic pb) T L v f -> ready (Elastic pb) T L (heavier F v) f.
Proof. apply uready. Qed.
Lemma analysis_heavier pb c v f rho F g a : well_posed pb c v f -> List.length rho = List.length (sf_centers f) -> (forall e, 0 <= nth e rho 0) ->
  (i_interp c = RAMP -> forall e, nth e rho 0 <= 1) -> i_sens_filter c = false -> evaluate pb c v f rho = Ok (g, a) ->
  exists b, evaluate pb c (heavier F v) f rho = Ok (g, b) /\ ev_filtered b = ev_filtered a /\ ev_projected b = ev_projected a /\ ev_compliance b = F ^ 2 * ev_compliance a /\
    (forall e, nth e (ev_dC b) 0 = F ^ 2 * nth e (ev_dC a) 0).
Proof.
  intros WP Hl H0 H1 Hs Ha.
  destruct (C107_analysis_by_load pb c v f rho (v_scale v) WP Hl H0 H1 Hs) as (g1 & x & y & Ex & Ey & Y1 & Y2 & Y3 & Y4).
  destruct (C107_analysis_by_load pb c v f rho (F * v_scale v) WP Hl H0 H1 Hs) as (g2 & x' & z & Ex' & Ez & Z1 & Z2 & Z3 & Z4).
  assert (Ev : loaded (v_scale v) v = v) by (destruct v; reflexivity). rewrite Ev in Ey.
  assert (E1 : g2 = g1 /\ x' = x) by (split; congruence). destruct E1 as (-> & ->). assert (E2 : g1 = g /\ y = a) by (split; congruence). destruct E2 as (-> & ->).
  exists z. split; [exact Ez|]. split; [congruence|]. split; [congruence|]. split; [rewrite Z3, Y3; ring|]. intros e. rewrite Z4, Y4. ring.
Qed.

Lemma map_abs_scale k l : 0 < k -> map Rabs (map (Rmult k) l) = map (Rmult k) (map Rabs l).
Proof. intros Hk. rewrite !map_map. apply map_ext. intros x. rewrite Rabs_mult, (Rabs_pos_eq k); lra. Qed.
Lemma max_scaled k a b : 0 < k -> Rmax (k * a) (k * b) = k * Rmax a b.
Proof. intros Hk. rewrite RmaxRmult by lra. reflexivity. Qed.
Lemma gather_scale k x D : gather (map (Rmult k) x) D = map (Rmult k) (gather x D).
Proof. unfold gather. rewrite map_map. apply map_ext. intros e. apply nth_scale. Qed.
Lemma zip_scale k : forall a b, rsum (zipwith Rmult (map (Rmult k) a) b) = k * rsum (zipwith Rmult a b).
Proof. induction a as [|x a IH]; intros [|y b]; cbn [map zipwith]; try (unfold rsum; cbn; ring). rewrite !rs_cons1, IH. ring. Qed.
Lemma scatter_scale k : forall ids z x, scatter (map (Rmult k) z) ids (map (Rmult k) x) = map (Rmult k) (scatter z ids x).
Proof.
  assert (U : forall z i y, upd (map (Rmult k) z) i (k * y) = map (Rmult k) (upd z i y)).
  { induction z as [|w z IH]; intros [|i] y; cbn; try reflexivity. now rewrite IH. }
  induction ids as [|i ids IH]; intros z [|y x]; cbn [map scatter]; try reflexivity. now rewrite U, IH.
Qed.
Definition sa (k : R) (a : lm_args) : lm_args :=
  mkLA (la_iter a) (la_design a) (la_rho a) (la_rho_filtered a) (la_rho_projected a) (map (Rmult k) (la_dC a)) (la_forward a) (la_gradient a)
    (la_move a) (la_eta a) (la_beta a) (la_percentile a) (la_volumes a) (la_vol_sum a) (la_vol_frac a).
Lemma center_sa k a x : LogMOC_model.center (sa k a) (map (Rmult k) x) = map (Rmult k) (LogMOC_model.center a x).
Proof. unfold LogMOC_model.center. cbn [sa la_volumes la_vol_sum]. rewrite zip_scale, !map_map. apply map_ext. intros y. unfold Rdiv. ring. Qed.
Lemma lagrangian_sa k L a lam : 0 < k -> m_normalize (l_m L) = true -> (m_filter_lagrangian (l_m L) = true -> forall x, List.length x = List.length (la_rho_filtered a) -> la_forward a (map (Rmult k) x) = map (Rmult k) (la_forward a x)) ->
  lagrangian_gradient (l_m (with_floor k L)) (sa k a) lam = map (Rmult k) (lagrangian_gradient (l_m L) a lam).
Proof.
  intros Hk Hn Hf. unfold lagrangian_gradient. cbn [with_floor l_m m_center_objective m_aug_mu m_filter_lagrangian m_center_lagrangian].
  change (lm_vol_error (sa k a)) with (lm_vol_error a). change (la_rho_filtered (sa k a)) with (la_rho_filtered a). change (la_design (sa k a)) with (la_design a). change (la_forward (sa k a)) with (la_forward a).
  change (volume_chain (mkLM _ _ _ _ _ _ _ _ _ _ _ _ _ _ _ _ _ _ _ _ _) (sa k a)) with (volume_chain (l_m L) a).
  assert (E1 : (if m_center_objective (l_m L) then LogMOC_model.center (sa k a) (la_dC (sa k a)) else la_dC (sa k a)) = map (Rmult k) (if m_center_objective (l_m L) then LogMOC_model.center a (la_dC a) else la_dC a)).
  { destruct (m_center_objective (l_m L)); [apply center_sa|reflexivity]. }
  rewrite E1. set (dC := if m_center_objective (l_m L) then LogMOC_model.center a (la_dC a) else la_dC a). set (V := volume_chain (l_m L) a). set (ve := lm_vol_error a). clear E1.
  assert (E2 : forall dV, chain_scale (l_m (with_floor k L)) (map (Rmult k) dC) dV ve = k * chain_scale (l_m L) dC dV ve).
  { intros dV. unfold chain_scale. cbn [with_floor l_m m_normalize m_lpercentile m_lfloor m_vpercentile m_vfloor m_gain_under m_gain]. rewrite Hn.
    rewrite map_abs_scale, percentile_scale, max_scaled by exact Hk. unfold Rdiv. ring. }
  cbn [with_floor l_m] in E2. rewrite E2. clear E2.
  set (w := chain_scale (l_m L) dC V ve). set (co := lam + m_aug_mu (l_m L) * ve).
  assert (E3 : zipwith (fun d v => d + co * v) (map (Rmult k) dC) (map (fun x => x * (k * w)) V) = map (Rmult k) (zipwith (fun d v => d + co * v) dC (map (fun x => x * w) V))).
  { clearbody w. clearbody dC V. revert V. induction dC as [|d dC IH]; intros [|x V]; cbn [map zipwith]; try reflexivity. rewrite IH. f_equal. ring. }
  rewrite E3. set (dL := zipwith _ dC _). clear E3.
  assert (E4 : (if m_filter_lagrangian (l_m L) then gather (la_forward a (scatter (map (fun _ => 0) (la_rho_filtered a)) (la_design a) (map (Rmult k) dL))) (la_design a) else map (Rmult k) dL)
    = map (Rmult k) (if m_filter_lagrangian (l_m L) then gather (la_forward a (scatter (map (fun _ => 0) (la_rho_filtered a)) (la_design a) dL)) (la_design a) else dL)).
  { destruct (m_filter_lagrangian (l_m L)); [|reflexivity].
    assert (Z : map (fun _ => 0) (la_rho_filtered a) = map (Rmult k) (map (fun _ => 0) (la_rho_filtered a))) by (rewrite map_map; apply map_ext; intros; ring).
    rewrite Z at 1. rewrite scatter_scale, Hf by (reflexivity || (rewrite scatter_len, map_length; reflexivity)). apply gather_scale. }
  rewrite E4. set (dL2 := if m_filter_lagrangian (l_m L) then _ else _). destruct (m_center_lagrangian (l_m L)); [apply center_sa|reflexivity].
Qed.
Lemma running_sa k L a rs dL r : 0 < k -> lm_running (l_m L) a rs dL = Ok r ->
  lm_running (l_m (with_floor k L)) (sa k a) (option_map (Rmult k) rs) (map (Rmult k) dL) = Ok (k * r).
Proof.
  intros Hk. unfold lm_running. cbn [sa la_percentile la_iter with_floor l_m m_lpercentile m_lfloor].
  rewrite map_abs_scale, percentile_scale, max_scaled by exact Hk. destruct (1 <? la_iter a)%Z.
  - destruct rs as [x|]; [|discriminate]. cbn [option_map]. intros H. injection H as <-. f_equal. ring.
  - intros H. injection H as <-. reflexivity.
Qed.
Lemma update_sa k L s s' a o : 0 < k -> m_normalize (l_m L) = true -> (m_filter_lagrangian (l_m L) = true -> forall x, List.length x = List.length (la_rho_filtered a) -> la_forward a (map (Rmult k) x) = map (Rmult k) (la_forward a x)) ->
  lambda_v s' = lambda_v s -> running_scale s' = option_map (Rmult k) (running_scale s) -> lm_rho_update (l_m L) s a = Ok o ->
  exists o', lm_rho_update (l_m (with_floor k L)) s' (sa k a) = Ok o' /\ lo_rho o' = lo_rho o /\ lo_kkt o' = lo_kkt o /\
    lambda_v (lo_state o') = lambda_v (lo_state o) /\ running_scale (lo_state o') = option_map (Rmult k) (running_scale (lo_state o)).
Proof.
  intros Hk Hn Hf Hlam Hrun H. unfold lm_rho_update in *. rewrite Hlam, Hrun. change (la_iter (sa k a)) with (la_iter a). change (lm_vol_error (sa k a)) with (lm_vol_error a).
  change (dual_step (l_m (with_floor k L))) with (dual_step (l_m L)). set (lam := dual_step _ _ _ _) in *.
  rewrite lagrangian_sa by assumption. set (dL := lagrangian_gradient (l_m L) a lam) in *.
  destruct (lm_running (l_m L) a (running_scale s) dL) as [r|] eqn:Er; [|discriminate]. cbn [bind] in H. rewrite (running_sa k L a _ _ r Hk Er). cbn [bind].
  eexists. split; [reflexivity|].
  assert (E : map (fun x => x / (k * r)) (map (Rmult k) dL) = map (fun x => x / r) dL).
  { rewrite map_map. apply map_ext. intros x. unfold Rdiv. destruct (Req_dec r 0) as [->|Hr]; [rewrite Rmult_0_r, Rinv_0; ring|]. field. lra. }
  rewrite E. injection H as <-. repeat split.
Qed.

(* the analysed densities are between 0 and 1 where RAMP needs it *)
Lemma dens_range pb T L v f rho : made_from (Elastic pb) T L -> ready (Elastic pb) T L v f -> 0 < m_rho_min (l_m L) <= m_rho_max (l_m L) ->
  densities_ok T (loop_cfg L) rho -> (forall e, 0 <= nth e rho 0) /\ (l_interp L = RAMP -> forall e, nth e rho 0 <= 1).
Proof.
  intros (HT & Hpk & Hdes) (_ & _ & _ & _ & Hr) Hb Hok. destruct (sets_of T (loop_cfg L) _ HT Hpk) as (_ & HD & _).
  assert (H : forall e, 0 <= nth e rho 0 /\ (m_rho_max (l_m L) <= 1 -> nth e rho 0 <= 1)).
  { intros e. destruct Hok as (Hlen & Hok). destruct (Nat.lt_ge_cases e (List.length (ta_t T))) as [He|He].
    - destruct (in_dec Nat.eq_dec e (d_design (pb_dom (element_task (Elastic pb))))) as [Q|Q]; rewrite HD in Q.
      + pose proof (proj1 (Hok e He) Q) as B. cbn [loop_cfg i_oc c_rho_min c_rho_max] in B. lra.
      + rewrite (proj2 (Hok e He) Q). lra.
    - rewrite nth_overflow by lia. lra. }
  split; [intros e; apply H|]. intros Q e. apply H, Hr, Q.
Qed.

(* C107.  one iteration with normalize_volume_chain=True: multiply the loads by F and the
   lagrangian_scale_floor by F^2, and the step is the same *)
Theorem C107_normalized_iteration : forall T L pb v i a b a' F,
  made_from (Elastic pb) T L -> ready (Elastic pb) T L v (ls_filter a) -> 0 < m_rho_min (l_m L) <= m_rho_max (l_m L) ->
  densities_ok T (loop_cfg L) (ls_rho a) -> l_sens_filter L = false -> m_normalize (l_m L) = true -> 0 < F ->
  same_design (F ^ 2) a b -> lm_iterate (Elastic pb) L v i a = Ok a' ->
  exists b', lm_iterate (Elastic pb) (with_floor (F ^ 2) L) (heavier F v) i b = Ok b' /\ same_design (F ^ 2) a' b'.
Proof.
  intros T L pb v i a b a' F HM HR Hb Hok Hs Hn HF (S1 & S2 & _ & _ & S5 & S6 & _) H.
  assert (Hk : 0 < F ^ 2) by (apply pow_lt; exact HF).
  destruct (lm_filter_after _ _ _ _ _ _ _ HM HR Hb Hok H) as (_ & ev & _ & Ea).
  unfold lm_iterate in H. rewrite Ea in H. cbn [bind element_task] in H.
  destruct (dens_range pb T L v _ _ HM HR Hb Hok) as (R0 & R1). pose proof HR as (_ & _ & WP & Hc & _).
  destruct (analysis_heavier pb (loop_cfg L) v (ls_filter a) (ls_rho a) F (f2 v (ls_filter a)) ev WP ltac:(rewrite Hc; apply (proj1 Hok)) R0 R1 Hs Ea) as (ev' & Eb & V1 & V2 & V3 & V4).
  unfold lm_iterate. cbn [analyse element_task]. change (loop_cfg (with_floor (F ^ 2) L)) with (loop_cfg L). rewrite S1, S2, Eb. cbn [bind].
  destruct (lm_advance_inv _ _ _ _ _ _ _ _ H) as (o & Ho & ->). clear H.
  assert (Eargs : lm_args_of pb (heavier F v) i (ls_rho b) (f2 v (ls_filter a)) ev' = sa (F ^ 2) (lm_args_of pb v i (ls_rho a) (f2 v (ls_filter a)) ev)).
  { unfold lm_args_of, sa. cbn [la_iter la_design la_rho la_rho_filtered la_rho_projected la_dC la_forward la_gradient la_move la_eta la_beta la_percentile la_volumes la_vol_sum la_vol_frac].
    rewrite S1, V1, V2. rewrite <- gather_scale.
    assert (G : gather (ev_dC ev') (d_design (pb_dom pb)) = gather (map (Rmult (F ^ 2)) (ev_dC ev)) (d_design (pb_dom pb))).
    { unfold gather. apply map_ext. intros e. rewrite V4, nth_scale. reflexivity. }
    rewrite G. reflexivity. }
  set (A := lm_args_of pb v i (ls_rho a) (f2 v (ls_filter a)) ev) in *.
  assert (Hlin : m_filter_lagrangian (l_m L) = true -> forall x, List.length x = List.length (la_rho_filtered A) -> la_forward A (map (Rmult (F ^ 2)) x) = map (Rmult (F ^ 2)) (la_forward A x)).
  { intros _ x Hx. cbn [A lm_args_of la_forward la_rho_filtered] in *.
    assert (Hx' : List.length x = List.length (sf_centers (ls_filter a))).
    { rewrite Hx. destruct (analyse_ok _ _ _ _ _ _ HM HR Hb Hok) as (ev2 & E2 & F2 & _). rewrite Ea in E2. assert (ev2 = ev) by congruence. subst ev2. rewrite F2. unfold filtered.
      now rewrite map_length, seq_length. }
    unfold sf_map. rewrite !(f2_forward pb (loop_cfg L) v (ls_filter a) _ WP) by (rewrite ?map_length; exact Hx'). apply filtered_lin. }
  destruct (update_sa (F ^ 2) L (ls_opt a) (ls_opt b) A o Hk Hn Hlin S5 S6 Ho) as (o' & Ho' & O1 & O2 & O3 & O4).
  unfold lm_advance. rewrite Eargs. rewrite Ho'. cbn [bind]. eexists. split; [reflexivity|].
  unfold same_design. cbn [ls_rho ls_filter ls_change ls_kkt ls_opt ls_eval]. rewrite S1, O1. change (loop_cfg (with_floor (F ^ 2) L)) with (loop_cfg L).
  repeat (split; [reflexivity || assumption|]). repeat (split; [assumption|]). exact V4.
Qed.
Print Assumptions C107_normalized_iteration.

(* C107.  a whole run: the same densities, filters, multipliers, density changes and KKT
   residuals in every iteration; only the recorded compliance knows the unit *)
Theorem C107_normalized_run : forall T L pb F sched a b l,
  made_from (Elastic pb) T L -> 0 < m_rho_min (l_m L) <= m_rho_max (l_m L) -> m_lambda_lower (l_m L) <= m_lambda_upper (l_m L) ->
  (forall i v, In (i, v) sched -> 0 <= v_move v /\ ready (Elastic pb) T L v (ls_filter a)) ->
  densities_ok T (loop_cfg L) (ls_rho a) -> l_sens_filter L = false -> m_normalize (l_m L) = true -> 0 < F ->
  same_design (F ^ 2) a b -> lm_optimize (Elastic pb) L sched a = Ok l ->
  exists l', lm_optimize (Elastic pb) (with_floor (F ^ 2) L) (map (fun iv => (fst iv, heavier F (snd iv))) sched) b = Ok l' /\
    Forall2 (same_design (F ^ 2)) l l'.
Proof.
  intros T L pb F sched. induction sched as [|[i v] sched IH]; intros a b l HM Hb Hl Hv Hok Hs Hn HF Hsd H; cbn [lm_optimize map fst snd] in *.
  - injection H as <-. exists []. split; [reflexivity|constructor].
  - destruct (lm_iterate (Elastic pb) L v i a) as [a1|] eqn:E1; [|discriminate]. cbn [bind] in H.
    destruct (lm_optimize (Elastic pb) L sched a1) as [l1|] eqn:E2; [|discriminate]. cbn [bind] in H. injection H as <-.
    destruct (Hv i v (or_introl eq_refl)) as (Hm & HR).
    destruct (C107_normalized_iteration T L pb v i a b a1 F HM HR Hb Hok Hs Hn HF Hsd E1) as (b1 & Eb & Hsd1).
    destruct (C95_iteration_keeps_bounds _ _ _ _ _ _ _ HM Hb Hl Hm Hok E1) as (Hok1 & _).
    destruct (lm_filter_after _ _ _ _ _ _ _ HM HR Hb Hok E1) as (Ef & _).
    destruct (IH a1 b1 l1 HM Hb Hl) as (l' & El & Hall); try assumption.
    + intros j w Q. destruct (Hv j w (or_intror Q)) as (Q1 & Q2). split; [exact Q1|]. rewrite Ef. eapply ready_same; [| |exact Q2]; reflexivity.
    + rewrite Eb. cbn [bind]. rewrite El. cbn [bind]. exists (b1 :: l'). split; [reflexivity|]. now constructor.
Qed.
Print Assumptions C107_normalized_run.

(* and a new optimizer starts in the same design whatever the floor *)
Theorem C107_new_optimizer : forall L rho f k, same_design k (lm_start L rho f) (lm_start (with_floor k L) rho f).
Proof. intros L rho f k. repeat split. Qed.

(* ---- an instance: three iterations with the loads in N and in mN ---- *)
Definition un_norm : lm_cfg :=
  mkLM (m_rho_min ex_lm) (m_rho_max ex_lm) (m_beta_eta ex_lm) (m_mu_p ex_lm) (m_aug_mu ex_lm) (m_lambda_init ex_lm) (m_decay ex_lm) (m_lambda_lower ex_lm) (m_lambda_upper ex_lm)
    (m_lclip ex_lm) (m_lpercentile ex_lm) (m_lfloor ex_lm) true (m_vpercentile ex_lm) (m_vfloor ex_lm) (m_gain ex_lm) (m_gain_under ex_lm) (m_augmented ex_lm)
    true true true.
Definition un_L := mkLC un_norm (1/1000) SIMP false true.
Theorem C107_normalized_instance :
  let sched := [(1%Z, ex_v); (2%Z, ex_v); (3%Z, ex_v)] in
  exists l l', lm_optimize (Elastic ex_pb) un_L sched (lm_start un_L [1/2; 1] ex_filter) = Ok l /\
    lm_optimize (Elastic ex_pb) (with_floor (1000 ^ 2) un_L) (map (fun iv => (fst iv, heavier 1000 (snd iv))) sched) (lm_start (with_floor (1000 ^ 2) un_L) [1/2; 1] ex_filter) = Ok l' /\
    map ls_rho l' = map ls_rho l /\ List.length l = 3%nat.
Proof.
  intros sched. assert (Hb : 0 < m_rho_min (l_m un_L) <= m_rho_max (l_m un_L)) by (cbn; lra).
  assert (HM : made_from (Elastic ex_pb) ex_T un_L) by exact ex_made.
  assert (HR : ready (Elastic ex_pb) ex_T un_L ex_v ex_filter) by exact ex_ready.
  assert (HD : densities_ok ex_T (loop_cfg un_L) [1/2; 1]) by exact ex_dens.
  assert (Hv : forall i v, In (i, v) sched -> 0 <= v_move v /\ ready (Elastic ex_pb) ex_T un_L v ex_filter).
  { intros i v Q. assert (v = ex_v) by (destruct Q as [E|[E|[E|[]]]]; congruence). subst v. split; [cbn; lra|exact HR]. }
  destruct (C95_fresh_run_succeeds (Elastic ex_pb) ex_T un_L ex_v 1 [(2%Z, ex_v); (3%Z, ex_v)] [1/2; 1] ex_filter HM Hb) as (l & El); try assumption; try (cbn; lra).
  { exists 0%nat. apply (ex_designs 0). reflexivity. } { lia. }
  destruct (C107_normalized_run ex_T un_L ex_pb 1000 sched (lm_start un_L [1/2; 1] ex_filter) (lm_start (with_floor (1000 ^ 2) un_L) [1/2; 1] ex_filter) l HM Hb) as (l' & El' & Hall);
    try assumption; try reflexivity; try (cbn; lra); try lra.
  { apply C107_new_optimizer. }
  exists l, l'. split; [exact El|]. split; [exact El'|]. split.
  - clear El El'. induction Hall as [|x y l l' Hxy _ IH]; [reflexivity|]. cbn [map]. rewrite IH. f_equal. apply Hxy.
  - clear -El.
    assert (G : forall sc s l, lm_optimize (Elastic ex_pb) un_L sc s = Ok l -> List.length l = List.length sc).
    { induction sc as [|[i v] sc IH]; intros s l0 H; cbn [lm_optimize] in H; [injection H as <-; reflexivity|].
      destruct (lm_iterate _ _ _ _ _) as [s1|]; [|discriminate]. cbn [bind] in H. destruct (lm_optimize _ _ sc s1) as [l1|] eqn:E; [|discriminate]. cbn [bind] in H. injection H as <-.
      cbn. f_equal. exact (IH _ _ E). }
    exact (G _ _ _ El).
Qed.
Print Assumptions C107_normalized_instance.
