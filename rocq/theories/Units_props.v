(* C107: LogMOC's step depends on the unit of the loads; OC's does not (C104). *)
From Verif Require Import Base Sums Material_model Material_proofs OC_model OC_spec OC_proofs LogMOC_model LogMOC_proofs LogMOC_props Filter_model Filter_proofs Filter_props Mesh_model Mesh_proofs Fea_model Fea_spec Fea_proofs Fea_props
  Iter_model Iter_spec Iter_proofs Grad_proofs Grad_props Iter_props VolGrad_props Heat_model HeatIter_model HeatIter_spec HeatIter_props LMIter_model LMIter_spec LMIter_props Scale_model Scale_proofs Scale_spec Scale_props Helmholtz_model HzIter_model HzSens_spec.
Open Scope R_scope.
Open Scope list_scope.

Lemma uwp F pb c v f : well_posed pb c v f -> well_posed pb c (loaded F v) f.
Proof. intros [W1 W2 W3 W4 W5 W6 W7 W8 W9 W10 W11 W12 W13]. constructor; assumption. Qed.
Lemma u_energy B nu E u a e : strain_energy B nu E (fun i => a * u i) e = a ^ 2 * strain_energy B nu E u e.
Proof.
  unfold strain_energy. rewrite <- sum_scal. apply sum_ext. intros q _.
  assert (G : forall i j, grad_of B (fun i => a * u i) e q i j = a * grad_of B u e q i j).
  { intros i j. unfold grad_of. rewrite <- sum_scal. apply sum_ext. intros k _. ring. }
  unfold energy_density, ddot, stress, trace, sym_grad, delta, sum. cbn [seq map]. unfold rsum. cbn [fold_right]. rewrite !G. cbn [Nat.eqb]. ring.
Qed.
(* the analysis with loads times F: the densities are the same, compliance and
   sensitivities are multiplied by F^2 *)
Theorem C107_analysis_by_load : forall pb c v f rho F, well_posed pb c v f -> List.length rho = List.length (sf_centers f) -> (forall e, 0 <= nth e rho 0) ->
  (i_interp c = RAMP -> forall e, nth e rho 0 <= 1) -> i_sens_filter c = false ->
  exists g a b, evaluate pb c (loaded 1 v) f rho = Ok (g, a) /\ evaluate pb c (loaded F v) f rho = Ok (g, b) /\
    ev_filtered b = ev_filtered a /\ ev_projected b = ev_projected a /\ ev_compliance b = F ^ 2 * ev_compliance a /\ forall e, nth e (ev_dC b) 0 = F ^ 2 * nth e (ev_dC a) 0.
Proof.
  intros pb c v f rho F WP Hlr Hrho Hramp Hsf.
  destruct (evaluate_total pb c (loaded 1 v) f rho (uwp 1 _ _ _ _ WP) Hlr (fun e _ => modulus_ok pb c (loaded 1 v) f rho (uwp 1 _ _ _ _ WP) Hrho Hramp e)) as (El & Hmod & HE & H1).
  destruct (evaluate_total pb c (loaded F v) f rho (uwp F _ _ _ _ WP) Hlr (fun e _ => modulus_ok pb c (loaded F v) f rho (uwp F _ _ _ _ WP) Hrho Hramp e)) as (El' & Hmod' & _ & H2).
  change (projected c (loaded F v) f rho) with (projected c v f rho) in *. change (projected c (loaded 1 v) f rho) with (projected c v f rho) in *.
  cbn [loaded v_p] in Hmod, Hmod'. assert (El' = El) by congruence. subst El'. rewrite Hsf in H1, H2. clear Hmod Hmod'.
  set (E := fun e => nth e El 0) in *. assert (HE' : forall e, (e < fb_ne (pb_basis pb))%nat -> 0 < E e).
  { intros e He. apply HE. pose proof (wp_elements _ _ _ _ WP). lia. }
  do 3 eexists. split; [exact H1|]. split; [exact H2|]. cbn [ev_filtered ev_projected ev_compliance ev_dC]. split; [reflexivity|]. split; [reflexivity|].
  destruct (usol_spec pb c (loaded 1 v) f (uwp 1 _ _ _ _ WP) E HE') as (_ & Q1). destruct (usol_spec pb c (loaded F v) f (uwp F _ _ _ _ WP) E HE') as (_ & Q2).
  assert (HU : Forall2 (fun u u' => forall i, (i < fb_n (pb_basis pb))%nat -> u' i = F * u i) (usol pb (loaded 1 v) E) (usol pb (loaded F v) E)).
  { unfold loads_of in Q1, Q2. cbn [loaded v_scale] in Q1, Q2. apply Forall2_map_l in Q1, Q2. revert Q1 Q2. generalize (usol pb (loaded 1 v) E), (usol pb (loaded F v) E). generalize (pb_loads pb).
    induction l as [|g l IH]; intros us us' A B; inversion A as [|? u ? us0 A1 A2]; inversion B as [|? u' ? us0' B1 B2]; subst; constructor; [|now apply IH].
    apply (equilibrium_unique (fb_n (pb_basis pb)) (stiffness (pb_basis pb) (pb_nu pb) E) (pb_D pb) (fun i => g i * 1 * F) _ _ (pb_supported pb c v _ WP E HE')).
    - replace (fun i => g i * 1 * F) with (fun i => g i * F); [exact B1|]. apply FunctionalExtensionality.functional_extensionality. intros i. ring.
    - apply (equilibrium_scale _ _ _ (fun i => g i * 1) u F). exact A1. }
  split.
  - unfold loads_count. unfold Rdiv. rewrite <- Rmult_assoc. f_equal. unfold loads_of. cbn [loaded v_scale]. revert HU. generalize (usol pb (loaded 1 v) E), (usol pb (loaded F v) E). generalize (pb_loads pb).
    induction l as [|g l IH]; intros us us' HU; [cbn; unfold rsum; cbn; ring|]. destruct HU as [|u u' us us' A B]; [cbn; unfold rsum; cbn; ring|]. cbn [map zipwith]. rewrite !rs_cons1, (IH _ _ B), Rmult_plus_distr_l. f_equal.
    unfold work. rewrite <- sum_scal. apply sum_ext. intros i Hi. destruct (Mesh_model.mem i (pb_D pb)); [ring|]. rewrite A by exact Hi. ring.
  - intros e. unfold dCfull. destruct (Nat.lt_ge_cases e (List.length (sf_centers f))) as [He|He]; [|rewrite !nth_overflow by (now rewrite map_length, seq_length); ring].
    rewrite !nth_map_seq' by exact He. unfold Rdiv. rewrite <- Rmult_assoc. f_equal. revert HU. generalize (usol pb (loaded 1 v) E), (usol pb (loaded F v) E).
    intros us us' HU. induction HU as [|u u' us us' A B IH]; [unfold rsum; cbn; ring|]. cbn [map]. rewrite !rs_cons1, IH, Rmult_plus_distr_l. f_equal.
    destruct (is_design (sf_mask f) e); [|ring]. unfold gfun.
    change (filtered (loaded F v) f rho) with (filtered v f rho). change (filtered (loaded 1 v) f rho) with (filtered v f rho).
    change (projected c (loaded F v) f rho) with (projected c v f rho). change (projected c (loaded 1 v) f rho) with (projected c v f rho). cbn [loaded v_p v_beta].
    change (cvT (loaded F v) f) with (cvT v f). change (cvT (loaded 1 v) f) with (cvT v f).
    rewrite (gfiltered_lin (i_interp c) (pb_E0 pb) (Emin_of pb c) (v_p v) (v_beta v) (c_beta_eta (i_oc c)) (filtered v f rho) (projected c v f rho) (F ^ 2) (strain_energy (pb_basis pb) (pb_nu pb) E u)).
    + apply cvT_lin.
    + intros e'. rewrite (energy_ext _ _ _ u' (fun i => F * u i) e' A). apply u_energy.
Qed.
Print Assumptions C107_analysis_by_load.

Lemma uready F pb T L v f : ready (Elastic pb) T L v f -> ready (Elastic pb) T L (loaded F v) f.
Proof. cbn [ready]. intros (A & B & C & D & E). repeat (split; [assumption|]). split; [now apply uwp|auto]. Qed.
Lemma lm_filter_after t T L v i s s' : made_from t T L -> ready t T L v (ls_filter s) -> 0 < m_rho_min (l_m L) <= m_rho_max (l_m L) -> densities_ok T (loop_cfg L) (ls_rho s) ->
  lm_iterate t L v i s = Ok s' -> ls_filter s' = f2 v (ls_filter s) /\ exists ev, ls_eval s' = Some ev /\ analyse t L v (ls_filter s) (ls_rho s) = Ok (f2 v (ls_filter s), ev).
Proof.
  intros HM HR Hb Hok H. destruct (analyse_ok t T L v _ _ HM HR Hb Hok) as (ev & E & _). unfold lm_iterate in H. rewrite E in H. cbn [bind] in H.
  destruct (lm_advance_inv _ _ _ _ _ _ _ _ H) as (o & _ & ->). cbn [ls_filter ls_eval]. split; [reflexivity|]. exists ev. auto.
Qed.
(* the slope that decides the step with loads times F: the compliance weighs F^2, the
   volume does not change *)
Theorem C107_step_by_load : forall T L pb v i s s1 e dc dv F sF,
  made_from (Elastic pb) T L -> ready (Elastic pb) T L v (ls_filter s) -> 0 < m_rho_min (l_m L) <= m_rho_max (l_m L) ->
  NoDup (ta_design T) -> mask_of_design pb (ls_filter s) -> l_interp L = SIMP -> l_sens_filter L = false ->
  m_filter_lagrangian (l_m L) = false -> m_center_lagrangian (l_m L) = false -> m_center_objective (l_m L) = false -> m_normalize (l_m L) = false ->
  0 <= v_move v -> 0 <= v_eta v -> 0 <= m_lclip (l_m L) -> 0 < m_lfloor (l_m L) -> (forall r, running_scale (ls_opt s) = Some r -> 0 < r) ->
  densities_ok T (loop_cfg L) (ls_rho s) ->
  lm_iterate (Elastic pb) L (loaded 1 v) i s = Ok s1 ->
  (forall ev, ls_eval s1 = Some ev -> forall e', designed T (loop_cfg L) e' -> 1 / 1000000 < nth e' (ev_projected ev) 0) ->
  designed T (loop_cfg L) e ->
  let n := List.length (ls_rho s) in
  let frac := fraction_of pb (loop_cfg L) v (ls_filter s1) in
  derivable_pt_lim (fun t => reported_compliance pb (loop_cfg L) (loaded 1 v) (ls_filter s) (line (ls_rho s) (unit_dir n e) t)) 0 dc ->
  derivable_pt_lim (fun t => frac (line (ls_rho s) (unit_dir n e) t)) 0 dv -> 1 / 100000000 < Rabs dv ->
  lm_iterate (Elastic pb) L (loaded F v) i s = Ok sF ->
  let coeff := lambda_v (ls_opt s1) + m_aug_mu (l_m L) * (frac (ls_rho s) - v_vol_frac v) in
  let slope := F ^ 2 * dc + coeff * dv in
  let old := nth e (ls_rho s) 0 in let new := nth e (ls_rho sF) 0 in
  dc <= 0 /\ lambda_v (ls_opt sF) = lambda_v (ls_opt s1) /\
  (0 <= slope -> new <= old) /\ (slope <= 0 -> old <= new) /\
  (0 < slope -> 0 < v_eta v -> 0 < m_lclip (l_m L) -> 0 < v_move v -> m_rho_min (l_m L) < old -> new < old) /\
  (slope < 0 -> 0 < v_eta v -> 0 < m_lclip (l_m L) -> 0 < v_move v -> old < m_rho_max (l_m L) -> old < new).
Proof.
  intros T L pb v i s s1 e dc dv F sF HM HR Hb Hnd Hmask Hsimp Hsf F1 F2 F3 F4 Hmv Heta Hcl Hfl Hrs Hok H1 Hproj De n frac Hdc Hdv Hshare HF coeff slope old new.
  destruct (lm_filter_after _ T L (loaded 1 v) i s s1 HM (uready 1 _ _ _ _ _ HR) Hb Hok H1) as (Ef1 & a & Ha & Aa).
  destruct (lm_filter_after _ T L (loaded F v) i s sF HM (uready F _ _ _ _ _ HR) Hb Hok HF) as (EfF & b & Hb' & Ab).
  change (f2 (loaded 1 v) (ls_filter s)) with (f2 v (ls_filter s)) in *. change (f2 (loaded F v) (ls_filter s)) with (f2 v (ls_filter s)) in *.
  cbn [analyse] in Aa, Ab. pose proof HR as (_ & _ & WP & Hc & _). pose proof (proj1 Hok) as Hlen.
  pose proof HM as (HT & Hpk & Hdes). cbn [element_task] in HT. destruct (sets_of T _ pb HT Hpk) as (_ & HD & _).
  assert (Hn0 : forall x, 0 <= nth x (ls_rho s) 0).
  { intros x. destruct Hok as (_ & Hok). destruct (Nat.lt_ge_cases x (List.length (ta_t T))) as [Hx|Hx].
    - destruct (in_dec Nat.eq_dec x (d_design (pb_dom pb))) as [Q|Q]; rewrite HD in Q.
      + pose proof (proj1 (Hok x Hx) Q) as B. cbn [loop_cfg i_oc c_rho_min c_rho_max] in B. lra.
      + rewrite (proj2 (Hok x Hx) Q). lra.
    - rewrite nth_overflow by lia. lra. }
  destruct (C107_analysis_by_load pb (loop_cfg L) v (ls_filter s) (ls_rho s) F WP ltac:(congruence) Hn0) as (g & a' & b' & Ea & Eb & _ & Ep & _ & EdC);
    [cbn; rewrite Hsimp; discriminate|exact Hsf|].
  assert (a' = a) by congruence. assert (b' = b) by congruence. subst a' b'. clear Ea Eb.
  assert (PF : forall e', designed T (loop_cfg L) e' -> 1 / 1000000 < nth e' (ev_projected b) 0) by (rewrite Ep; now apply Hproj).
  assert (HeD : In e (d_design (pb_dom pb))) by now apply HD.
  assert (Hen : (e < n)%nat) by (apply HD in HeD; destruct HeD as (Q & _); unfold n; rewrite Hlen; auto).
  assert (GR : forall w ev, well_posed pb (loop_cfg L) w (ls_filter s) -> evaluate pb (loop_cfg L) w (ls_filter s) (ls_rho s) = Ok (f2 v (ls_filter s), ev) ->
    (forall e', designed T (loop_cfg L) e' -> 1 / 1000000 < nth e' (ev_projected ev) 0) ->
    derivable_pt_lim (fun t => reported_compliance pb (loop_cfg L) w (ls_filter s) (line (ls_rho s) (unit_dir n e) t)) 0 (nth e (ev_dC ev) 0)).
  { intros w ev W Ew Pw.
    destruct (C62_reported_sensitivity_is_the_gradient pb (loop_cfg L) w (ls_filter s) (ls_rho s) (unit_dir n e) (f2 v (ls_filter s)) ev W Hsimp Hsf ltac:(congruence) ltac:(rewrite unit_len; unfold n; congruence) Hn0) as (_ & Dc).
    - intros x Hx. rewrite unit_nth. destruct (Nat.eqb_spec x e) as [->|]; [|reflexivity]. apply (proj2 Hmask) in HeD. destruct HeD as (_ & HeD). congruence.
    - exact Ew.
    - intros x Hx Hx'. apply Pw, HD, (proj2 Hmask). auto.
    - assert (Q : List.length (sf_centers (ls_filter s)) = n) by (unfold n; congruence). rewrite Q in Dc.
      rewrite (unit_sum n e (fun x => nth x (ev_dC ev) 0) (seq 0 n) Hen) in Dc; [exact Dc|apply seq_NoDup|apply in_seq; lia]. }
  pose proof (uniqueness_limite _ _ _ _ Hdc (GR _ a (uwp 1 _ _ _ _ WP) Aa (Hproj a Ha))) as Edc.
  pose proof (C95_multiplier_follows_volume _ T L (loaded 1 v) i s s1 HM (uready 1 _ _ _ _ _ HR) Hb Hok H1) as L1.
  pose proof (C95_multiplier_follows_volume _ T L (loaded F v) i s sF HM (uready F _ _ _ _ _ HR) Hb Hok HF) as LF.
  assert (EL : lambda_v (ls_opt sF) = lambda_v (ls_opt s1)) by (rewrite LF, L1, EfF, Ef1; reflexivity). clear L1 LF.
  split.
  { rewrite Edc. destruct (evaluate_safe pb (loop_cfg L) (loaded 1 v) (ls_filter s) (ls_rho s) (uwp 1 _ _ _ _ WP) (or_introl Hsimp) ltac:(congruence) Hn0) as (ev & E' & _ & _ & Q).
    - intros Q x. destruct Hok as (_ & Hok). destruct (Nat.lt_ge_cases x (List.length (ta_t T))) as [Hx|Hx]; [|rewrite nth_overflow by lia; lra].
      destruct (in_dec Nat.eq_dec x (d_design (pb_dom pb))) as [Z|Z]; rewrite HD in Z; [pose proof (proj1 (Hok x Hx) Z) as B; cbn [loop_cfg i_oc c_rho_min c_rho_max] in B, Q; lra|rewrite (proj2 (Hok x Hx) Z); lra].
    - assert (ev = a) by congruence. subst ev. apply Q. }
  split; [exact EL|].
  destruct (C95_step_descends_the_lagrangian T L pb (loaded F v) i s sF b HM (uready F _ _ _ _ _ HR) Hb Hnd Hmask Hsimp Hsf F1 F2 F3 Hmv Heta Hcl Hfl Hrs Hok HF Hb' PF) as (w & Hw & _ & B).
  { exists e, dv. split; [exact De|]. split; [|exact Hshare]. unfold frac in Hdv. rewrite Ef1 in Hdv. rewrite EfF. exact Hdv. }
  specialize (Hw F4). subst w. cbn zeta in B. destruct (B e De) as (sl & Hsl & B'). clear B.
  assert (Esl : sl = slope).
  { refine (uniqueness_limite _ _ _ _ Hsl _). unfold slope. rewrite Edc, <- EdC.
    apply (derivable_pt_lim_plus (fun t => reported_compliance pb (loop_cfg L) (loaded F v) (ls_filter s) (line (ls_rho s) (unit_dir n e) t)) (fun t => _ * fraction_of pb (loop_cfg L) (loaded F v) (ls_filter sF) (line (ls_rho s) (unit_dir n e) t))).
    - exact (GR _ b (uwp F _ _ _ _ WP) Ab PF).
    - rewrite EL, EfF. rewrite Rmult_1_r. unfold coeff, frac. rewrite Ef1. unfold frac in Hdv. rewrite Ef1 in Hdv. apply (derivable_pt_lim_scal (fun t => fraction_of pb (loop_cfg L) v (f2 v (ls_filter s)) (line (ls_rho s) (unit_dir n e) t))). exact Hdv. }
  rewrite Esl in B'. exact B'.
Qed.
Print Assumptions C107_step_by_load.

(* REFUTED: the same task with loads in another unit.  With small numbers LogMOC takes
   material away from an element, with large ones it adds material to it *)
Theorem C107_opposite_steps_refuted : forall T L pb v i s s1 e dc dv,
  made_from (Elastic pb) T L -> ready (Elastic pb) T L v (ls_filter s) -> 0 < m_rho_min (l_m L) <= m_rho_max (l_m L) ->
  NoDup (ta_design T) -> mask_of_design pb (ls_filter s) -> l_interp L = SIMP -> l_sens_filter L = false ->
  m_filter_lagrangian (l_m L) = false -> m_center_lagrangian (l_m L) = false -> m_center_objective (l_m L) = false -> m_normalize (l_m L) = false ->
  0 < v_move v -> 0 < v_eta v -> 0 < m_lclip (l_m L) -> 0 < m_lfloor (l_m L) -> (forall r, running_scale (ls_opt s) = Some r -> 0 < r) ->
  densities_ok T (loop_cfg L) (ls_rho s) -> ((i <= 1)%Z \/ running_scale (ls_opt s) <> None) ->
  lm_iterate (Elastic pb) L (loaded 1 v) i s = Ok s1 ->
  (forall ev, ls_eval s1 = Some ev -> forall e', designed T (loop_cfg L) e' -> 1 / 1000000 < nth e' (ev_projected ev) 0) ->
  designed T (loop_cfg L) e -> m_rho_min (l_m L) < nth e (ls_rho s) 0 < m_rho_max (l_m L) ->
  let n := List.length (ls_rho s) in
  let frac := fraction_of pb (loop_cfg L) v (ls_filter s1) in
  (* the element contributes to the stiffness, and volume is to be removed *)
  derivable_pt_lim (fun t => reported_compliance pb (loop_cfg L) (loaded 1 v) (ls_filter s) (line (ls_rho s) (unit_dir n e) t)) 0 dc -> dc < 0 ->
  derivable_pt_lim (fun t => frac (line (ls_rho s) (unit_dir n e) t)) 0 dv -> 1 / 100000000 < dv ->
  0 < lambda_v (ls_opt s1) + m_aug_mu (l_m L) * (frac (ls_rho s) - v_vol_frac v) ->
  exists small large, 0 < small < large /\ forall F, 0 < F ->
    (F <= small -> exists s', lm_iterate (Elastic pb) L (loaded F v) i s = Ok s' /\ nth e (ls_rho s') 0 < nth e (ls_rho s) 0) /\
    (large <= F -> exists s', lm_iterate (Elastic pb) L (loaded F v) i s = Ok s' /\ nth e (ls_rho s) 0 < nth e (ls_rho s') 0).
Proof.
  intros T L pb v i s s1 e dc dv HM HR Hb Hnd Hmask Hsimp Hsf F1 F2 F3 F4 Hmv Heta Hcl Hfl Hrs Hok Hi H1 Hproj De Hin n frac Hdc Hneg Hdv Hshare Hco.
  set (coeff := lambda_v (ls_opt s1) + _) in Hco. set (k := coeff * dv). assert (Hk : 0 < k) by (apply Rmult_lt_0_compat; lra).
  set (d := - dc). assert (Hd : 0 < d) by (unfold d; lra).
  assert (Q0 : 0 < k / (2 * d)) by (apply Rdiv_lt_0_compat; lra).
  assert (Q1 : k / (2 * d) * d = k / 2) by (field; lra). assert (Q2 : 2 * k / d * d = 2 * k) by (field; lra).
  exists (Rmin 1 (k / (2 * d))), (Rmax 2 (2 * k / d)). split.
  { split; [apply Rmin_pos; lra|]. pose proof (Rmin_l 1 (k / (2 * d))). pose proof (Rmax_l 2 (2 * k / d)). lra. }
  intros F HF.
  assert (ST : exists sF, lm_iterate (Elastic pb) L (loaded F v) i s = Ok sF).
  { destruct (C95_iteration_succeeds (Elastic pb) T L (loaded F v) i s HM (uready F _ _ _ _ _ HR) Hb Hok (ex_intro _ e De) Hi) as (sF & E & _). exists sF. exact E. }
  destruct ST as (sF & HsF).
  destruct (C107_step_by_load T L pb v i s s1 e dc dv F sF HM HR Hb Hnd Hmask Hsimp Hsf F1 F2 F3 F4 ltac:(lra) ltac:(lra) ltac:(lra) Hfl Hrs Hok H1 Hproj De Hdc Hdv ltac:(rewrite Rabs_pos_eq; lra) HsF) as (_ & _ & _ & _ & S1 & S2).
  fold frac in S1, S2. fold coeff in S1, S2. fold k in S1, S2.
  split; intros HL; exists sF; (split; [exact HsF|]).
  - apply S1; try lra. assert (A1 : F <= 1) by (eapply Rle_trans; [exact HL|apply Rmin_l]). assert (A2 : F <= k / (2 * d)) by (eapply Rle_trans; [exact HL|apply Rmin_r]).
    assert (A3 : F ^ 2 <= F) by nra. assert (A4 : F ^ 2 * d <= k / 2) by (apply Rle_trans with (F * d); [apply Rmult_le_compat_r; lra|rewrite <- Q1; apply Rmult_le_compat_r; lra]).
    replace (F ^ 2 * dc) with (- (F ^ 2 * d)) by (unfold d; ring). lra.
  - apply S2; try lra. assert (A1 : 2 <= F) by (eapply Rle_trans; [apply Rmax_l|exact HL]). assert (A2 : 2 * k / d <= F) by (eapply Rle_trans; [apply Rmax_r|exact HL]).
    assert (A3 : F <= F ^ 2) by nra. assert (A4 : 2 * k <= F ^ 2 * d) by (apply Rle_trans with (F * d); [rewrite <- Q2; apply Rmult_le_compat_r; lra|apply Rmult_le_compat_r; lra]).
    replace (F ^ 2 * dc) with (- (F ^ 2 * d)) by (unfold d; ring). lra.
Qed.
Print Assumptions C107_opposite_steps_refuted.

(* ---- the two-element rod of C62 with volume target 0 ---- *)
Definition un_v := mkVals 1 3 0 2 (1/10) (1/2) None 1.
Lemma un_ready : ready (Elastic ex_pb) ex_T ex_L un_v ex_filter.
Proof.
  split; [exact ex_built|]. split; [left; discriminate|]. split; [|split; [reflexivity|discriminate]].
  constructor; cbn; try lra; [reflexivity|exists 0%nat; split; [lia|reflexivity]|intros; lra|discriminate|apply ex_solver].
Qed.
Lemma un_mask : mask_of_design ex_pb ex_filter.
Proof.
  unfold mask_of_design. change (pb_dom ex_pb) with ex_dom. rewrite ex_dom_eq. cbn [d_design]. split; [repeat constructor; easy|].
  intros e. split; [intros [<-|[]]; split; [cbn; lia|reflexivity]|]. intros (He & Hd). destruct e as [|[|e]]; [now left|discriminate|cbn in He; lia].
Qed.
Lemma un_rate : exists dv, 1 / 100000000 < dv /\ derivable_pt_lim (fun t => fraction_of ex_pb (loop_cfg ex_L) un_v (f2 un_v ex_filter) (line [1/2; 1] (unit_dir 2 0) t)) 0 dv.
Proof.
  assert (U : usable (f2 un_v ex_filter)) by (split; [cbn; lra|]; exists 0%nat; split; [cbn; lia|reflexivity]).
  destruct (C65_uniform_growth_rate ex_pb (loop_cfg ex_L) un_v (f2 un_v ex_filter) [1/2; 1] (1/2) U un_mask eq_refl) as (A & _).
  - change (pb_dom ex_pb) with ex_dom. rewrite ex_dom_eq. cbn. lra.
  - change (pb_dom ex_pb) with ex_dom. rewrite ex_dom_eq. intros e [<-|[]]. reflexivity.
  - eexists. split; [|exact A].
    cbn [loop_cfg ex_L l_m ex_lm m_beta_eta i_oc c_beta_eta un_v v_beta]. unfold heaviside_projection_derivative.
    replace (2 * (1/2 - 1/2)) with 0 by ring. rewrite tanh_0'. replace (2 * (1/2)) with 1 by lra. replace (2 * (1 - 1/2)) with 1 by lra.
    assert (T1 : 0 < tanh 1 < 1).
    { unfold tanh, sinh, cosh. set (b := exp (-(1))). set (a := exp 1).
      assert (Hb0 : 0 < b) by apply exp_pos. assert (Hab : b < a) by (apply exp_increasing; lra). clearbody a b.
      split; [apply Rdiv_lt_0_compat; lra|]. apply (Rmult_lt_reg_r ((a + b) / 2)); [lra|].
      replace ((a - b) / 2 / ((a + b) / 2) * ((a + b) / 2)) with ((a - b) / 2) by (field; lra). lra. }
    assert (Ht : 0 < tiny < 1) by (unfold tiny; lra). set (d := tanh 1 + tanh 1 + tiny). assert (Hd : 0 < d < 3) by (unfold d; lra).
    assert (Hq : 2 / 3 < 2 * (1 - 0 * 0) / d). { apply (Rmult_lt_reg_r d); [lra|]. replace (2 * (1 - 0 * 0) / d * d) with 2 by (field; lra). lra. }
    match goal with |- _ < ?x => replace x with (2 * (1 - 0 * 0) / d) by (unfold d; try reflexivity; field; lra) end. lra.
Qed.
(* its only design element, of density 1/2, loses material for all loads below one level
   and gains material for all loads above another *)
Example C107_instance : exists small large, 0 < small < large /\ forall F, 0 < F ->
  (F <= small -> exists s', lm_iterate (Elastic ex_pb) ex_L (loaded F un_v) 1 (lm_start ex_L [1/2; 1] ex_filter) = Ok s' /\ nth 0 (ls_rho s') 0 < 1/2) /\
  (large <= F -> exists s', lm_iterate (Elastic ex_pb) ex_L (loaded F un_v) 1 (lm_start ex_L [1/2; 1] ex_filter) = Ok s' /\ 1/2 < nth 0 (ls_rho s') 0).
Proof.
  set (s0 := lm_start ex_L [1/2; 1] ex_filter). assert (Hb : 0 < m_rho_min (l_m ex_L) <= m_rho_max (l_m ex_L)) by (cbn; lra).
  assert (Hnd : NoDup (ta_design ex_T)) by (repeat constructor; cbn; intuition lia).
  destruct (C95_iteration_succeeds (Elastic ex_pb) ex_T ex_L (loaded 1 un_v) 1 s0 ex_made (uready 1 _ _ _ _ _ un_ready) Hb ex_dens ltac:(exists 0%nat; now apply ex_designs) ltac:(left; lia)) as (s1 & E & _).
  destruct (lm_filter_after _ ex_T ex_L (loaded 1 un_v) 1 s0 s1 ex_made (uready 1 _ _ _ _ _ un_ready) Hb ex_dens E) as (Efl & ev & Hev & An).
  change (f2 (loaded 1 un_v) (ls_filter s0)) with (f2 ex_v ex_filter) in Efl, An. cbn [analyse] in An. cbn [s0 lm_start ls_filter ls_rho] in An.
  change (evaluate ex_pb (loop_cfg ex_L) (loaded 1 un_v) ex_filter [1/2; 1]) with (evaluate ex_pb ex_c ex_v ex_filter [1/2; 1]) in An.
  destruct ex_sensitivity as (ev' & Ev' & Hs). assert (ev' = ev) by congruence. subst ev'. clear Ev'.
  destruct un_rate as (dv & Hdv & Dv).
  assert (Hproj : forall e', designed ex_T (loop_cfg ex_L) e' -> 1 / 1000000 < nth e' (ev_projected ev) 0).
  { intros e He. apply ex_designs in He. subst e.
    destruct (analyse_ok (Elastic ex_pb) ex_T ex_L ex_v ex_filter [1/2; 1] ex_made ex_ready Hb ex_dens) as (ev0 & E1 & _ & Ep & _). cbn [analyse] in E1.
    change (evaluate ex_pb (loop_cfg ex_L) ex_v ex_filter [1/2; 1]) with (evaluate ex_pb ex_c ex_v ex_filter [1/2; 1]) in E1. assert (ev0 = ev) by congruence. subst ev0.
    rewrite Ep, projected_eq, nth_map_seq' by (cbn; lia). rewrite ex_filtered. apply ex_H. }
  destruct (evaluate_safe ex_pb ex_c ex_v ex_filter [1/2; 1] ex_wp (or_introl eq_refl) eq_refl) as (ev0 & E0 & _ & _ & Hnp);
    [intros [|[|[|e]]]; cbn; lra|intros _ [|[|[|e]]]; cbn; lra|]. assert (ev0 = ev) by congruence. subst ev0. clear E0. specialize (Hnp 0%nat).
  assert (Dc : derivable_pt_lim (fun t => reported_compliance ex_pb (loop_cfg ex_L) (loaded 1 un_v) ex_filter (line [1/2; 1] (unit_dir 2 0) t)) 0 (nth 0 (ev_dC ev) 0)).
  { destruct (C62_reported_sensitivity_is_the_gradient ex_pb ex_c ex_v ex_filter [1/2; 1] (unit_dir 2 0) (f2 ex_v ex_filter) ev ex_wp eq_refl eq_refl eq_refl eq_refl) as (_ & D).
    - intros [|[|[|e]]]; cbn; lra.
    - intros [|[|[|e]]] Q; cbn in *; try discriminate; reflexivity.
    - exact An.
    - intros e He Hd. apply Hproj, ex_designs. destruct e as [|[|e]]; [reflexivity|discriminate|cbn in He; lia].
    - change (List.length (sf_centers ex_filter)) with 2%nat in D. rewrite (unit_sum 2 0 (fun x => nth x (ev_dC ev) 0) (seq 0 2)) in D; [exact D|lia|apply seq_NoDup|cbn; auto]. }
  assert (Hfrac : 0 < fraction_of ex_pb (loop_cfg ex_L) un_v (f2 ex_v ex_filter) [1/2; 1]).
  { unfold fraction_of, material_fraction. change (pb_dom ex_pb) with ex_dom. rewrite ex_dom_eq. cbn [d_design map List.length seq nth].
    assert (Q : sf_map (f2 ex_v ex_filter) [1/2; 1] = filtered ex_v ex_filter [1/2; 1]) by (unfold sf_map; now rewrite (f2_forward ex_pb ex_c ex_v ex_filter [1/2; 1] ex_wp eq_refl)).
    rewrite Q, ex_filtered. cbn [pb_volumes ex_pb nth]. unfold rsum. cbn [fold_right]. pose proof ex_H as HH. cbn [loop_cfg ex_L l_m ex_lm m_beta_eta i_oc c_beta_eta un_v v_beta]. lra. }
  assert (Hlam : 0 < lambda_v (ls_opt s1)).
  { rewrite (C95_multiplier_follows_volume _ ex_T ex_L (loaded 1 un_v) 1 s0 s1 ex_made (uready 1 _ _ _ _ _ un_ready) Hb ex_dens E). rewrite Efl.
    unfold next_multiplier. change (1 <=? 1)%Z with true. cbn iota. cbn [element_task]. change (fraction_of ex_pb (loop_cfg ex_L) (loaded 1 un_v)) with (fraction_of ex_pb (loop_cfg ex_L) un_v).
    change (ls_rho s0) with [1/2; 1]. cbn [ex_L l_m ex_lm m_mu_p m_lambda_lower m_lambda_upper loaded v_vol_frac un_v]. set (x := fraction_of _ _ _ _ _) in *.
    unfold Rmin, Rmax. repeat destruct (Rle_dec _ _); lra. }
  refine (C107_opposite_steps_refuted ex_T ex_L ex_pb un_v 1 s0 s1 0 (nth 0 (ev_dC ev) 0) dv ex_made un_ready Hb Hnd un_mask eq_refl eq_refl eq_refl eq_refl eq_refl eq_refl _ _ _ _ _ ex_dens (or_introl _) E _ _ _ Dc _ _ Hdv _);
    try (cbn; lra); try lia.
  - discriminate.
  - intros ev0 H0. assert (ev0 = ev) by congruence. subst ev0. exact Hproj.
  - now apply ex_designs.
  - unfold Rabs in Hs. destruct (Rcase_abs _); lra.
  - rewrite Efl. exact Dv.
Qed.
