(* C95: whole iterations and runs of the density method with the LogMOC update. *)
From Verif Require Import Base Sums LinAlg Material_model Material_proofs OC_model OC_spec OC_proofs OC_props OCvol_props LogMOC_model LogMOC_proofs LogMOC_props Filter_model Filter_proofs Filter_props
  Mesh_model Mesh_spec Mesh_proofs Mesh_props Fea_model Fea_spec Fea_proofs Fea_props Iter_model Iter_spec Grad_proofs Iter_proofs Grad_props Iter_props Vol_props VolGrad_props
  Heat_model Heat_spec Heat_proofs Heat_props HeatAdj_model HeatAdj_props HeatIter_model HeatIter_spec HeatIter_props LMIter_model LMIter_spec.
Open Scope R_scope.
Open Scope list_scope.

Lemma nth_mapR (g : R -> R) l k : (k < List.length l)%nat -> nth k (map g l) 0 = g (nth k l 0).
Proof. intros H. rewrite (nth_indep _ 0 (g 0)) by now rewrite map_length. apply map_nth. Qed.
(* design densities [new] written over rho, then the pinned elements *)
Lemma placed_keeps_bounds T c pb rho new move : built_from T c pb -> pins_known T c ->
  (forall e, In e (ta_design T) -> (e < List.length (ta_t T))%nat) -> 0 <= move -> densities_ok T c rho ->
  Forall2 (fun r x => c_rho_min (i_oc c) <= x <= c_rho_max (i_oc c) /\ Rabs (x - r) <= move) (gather rho (d_design (pb_dom pb))) new ->
  let rho' := pin (scatter rho (d_design (pb_dom pb)) new) (pins pb c) in
  let change := np_max (map Rabs (zipwith Rminus (gather rho' (d_design (pb_dom pb))) (gather rho (d_design (pb_dom pb))))) in
  densities_ok T c rho' /\ (forall e, designed T c e -> Rabs (nth e rho' 0 - nth e rho 0) <= move) /\
  change <= move /\ (forall e, designed T c e -> Rabs (nth e rho' 0 - nth e rho 0) <= change) /\
  ((exists e, designed T c e) -> exists e, designed T c e /\ change = Rabs (nth e rho' 0 - nth e rho 0)).
Proof.
  intros HT Hne Hdes Hm (Hlen & Hok) Hstep.
  destruct (sets_of T c pb HT Hne) as (Hn & HD & l & Hp & HL1 & HL2 & HL3). rewrite Hp.
  assert (Hdr : forall e, designed T c e -> (e < List.length (ta_t T))%nat) by (intros e (He & _); auto).
  intros rho'.
  assert (Hnl : List.length new = List.length (d_design (pb_dom pb))).
  { apply Forall2_len in Hstep. unfold gather in Hstep. rewrite map_length in Hstep. auto. }
  assert (R0 : forall i, In i (d_design (pb_dom pb)) -> (i < List.length rho)%nat) by (intros e He; rewrite Hlen; apply Hdr, HD, He).
  assert (R1 : forall i, In i l -> (i < List.length (scatter rho (d_design (pb_dom pb)) new))%nat) by (intros e He; rewrite scatter_len, Hlen; now apply HL1).
  assert (Hd : forall e, designed T c e -> c_rho_min (i_oc c) <= nth e rho' 0 <= c_rho_max (i_oc c) /\ Rabs (nth e rho' 0 - nth e rho 0) <= move).
  { intros e He. unfold rho'. rewrite pin_nth by exact R1. destruct (in_dec Nat.eq_dec e l) as [Q|Q]; [apply HL1 in Q; tauto|].
    destruct (scatter_in (d_design (pb_dom pb)) rho new e (proj2 (HD e) He) R0 Hnl) as (k & Hk & Ek & ->).
    pose proof (F2_nth _ _ _ k 0 0 Hstep) as F. rewrite gather_len in F. specialize (F Hk). cbn beta in F. rewrite gather_nth in F by exact Hk. now rewrite Ek in F. }
  assert (Hzz : forall (g h : nat -> R) ids, map Rabs (zipwith Rminus (map g ids) (map h ids)) = map (fun e => Rabs (g e - h e)) ids).
  { clear. induction ids as [|e ids IH]; [reflexivity|]. cbn [map zipwith]. now rewrite IH. }
  intros change. assert (Ec : change = np_max (map (fun e => Rabs (nth e rho' 0 - nth e rho 0)) (d_design (pb_dom pb)))).
  { unfold change, gather. now rewrite Hzz. }
  split; [split|split; [|split; [|split]]].
  - unfold rho'. now rewrite pin_len, scatter_len.
  - intros e He. split; [intros Hde; exact (proj1 (Hd e Hde))|]. intros Hnd. unfold rho'. rewrite pin_nth by exact R1.
    destruct (in_dec Nat.eq_dec e l); [reflexivity|]. rewrite scatter_notin by (rewrite HD; exact Hnd). now apply Hok.
  - intros e He. now apply Hd.
  - rewrite Ec. apply np_max_le; [exact Hm|]. intros x Hx. apply in_map_iff in Hx. destruct Hx as (e & <- & He). apply Hd, HD, He.
  - intros e He. rewrite Ec. apply np_max_ge. apply in_map_iff. exists e. split; [reflexivity|now apply HD].
  - intros (e & He). rewrite Ec. apply HD in He.
    pose proof (np_max_in (map (fun e => Rabs (nth e rho' 0 - nth e rho 0)) (d_design (pb_dom pb)))) as Q.
    assert (Hnn : map (fun e => Rabs (nth e rho' 0 - nth e rho 0)) (d_design (pb_dom pb)) <> []) by (destruct (d_design (pb_dom pb)); [easy|discriminate]).
    specialize (Q Hnn). apply in_map_iff in Q. destruct Q as (e' & Ee & He'). exists e'. split; [now apply HD|now symmetry].
Qed.

Lemma lm_advance_inv pb L v i s f ev s' : lm_advance pb L v i s f ev = Ok s' ->
  exists o, lm_rho_update (l_m L) (ls_opt s) (lm_args_of pb v i (ls_rho s) f ev) = Ok o /\
    let rho' := pin (scatter (ls_rho s) (d_design (pb_dom pb)) (lo_rho o)) (pins pb (loop_cfg L)) in
    s' = mkLS rho' f (lo_state o) (np_max (map Rabs (zipwith Rminus (gather rho' (d_design (pb_dom pb))) (gather (ls_rho s) (d_design (pb_dom pb))))))
           (lo_kkt o) (Some ev).
Proof. unfold lm_advance. destruct (lm_rho_update _ _ _) as [o|]; [|discriminate]. cbn [bind]. intros H. exists o. split; [reflexivity|]. cbn zeta. congruence. Qed.

(* ---- C95: bounds, move limit, pinned elements ---- *)
Theorem C95_iteration_keeps_bounds t T L v i s s' :
  made_from t T L -> 0 < m_rho_min (l_m L) <= m_rho_max (l_m L) -> m_lambda_lower (l_m L) <= m_lambda_upper (l_m L) -> 0 <= v_move v ->
  densities_ok T (loop_cfg L) (ls_rho s) -> lm_iterate t L v i s = Ok s' ->
  densities_ok T (loop_cfg L) (ls_rho s') /\
  (forall e, designed T (loop_cfg L) e -> Rabs (nth e (ls_rho s') 0 - nth e (ls_rho s) 0) <= v_move v) /\
  ls_change s' <= v_move v /\
  (forall e, designed T (loop_cfg L) e -> Rabs (nth e (ls_rho s') 0 - nth e (ls_rho s) 0) <= ls_change s') /\
  ((exists e, designed T (loop_cfg L) e) -> exists e, designed T (loop_cfg L) e /\ ls_change s' = Rabs (nth e (ls_rho s') 0 - nth e (ls_rho s) 0)) /\
  m_lambda_lower (l_m L) <= lambda_v (ls_opt s') <= m_lambda_upper (l_m L).
Proof.
  intros (HT & Hpk & Hdes) Hb Hl Hm Hok H. unfold lm_iterate in H.
  destruct (analyse t L v (ls_filter s) (ls_rho s)) as [[f ev]|]; [|discriminate]. cbn [bind] in H.
  set (pb := element_task t) in *. destruct (lm_advance_inv _ _ _ _ _ _ _ _ H) as (o & Ho & ->). clear H. cbn [ls_rho ls_change ls_opt].
  assert (F : Forall2 (fun r x => c_rho_min (i_oc (loop_cfg L)) <= x <= c_rho_max (i_oc (loop_cfg L)) /\ Rabs (x - r) <= v_move v) (gather (ls_rho s) (d_design (pb_dom pb))) (lo_rho o)).
  { pose proof (C23_whole_update_bounds_and_move_limit (l_m L) (ls_opt s) (lm_args_of pb v i (ls_rho s) f ev) o Hb Hm) as C. cbn [lm_args_of la_dC la_design la_rho la_move] in C.
    specialize (C ltac:(now rewrite gather_len) ltac:(now rewrite gather_len) Ho).
    assert (G : forall l, Forall (fun r => m_rho_min (l_m L) <= r <= m_rho_max (l_m L)) l -> forall m,
      Forall2 (fun r x => m_rho_min (l_m L) <= x <= m_rho_max (l_m L) /\ Rabs (x - clip r (m_rho_min (l_m L)) (m_rho_max (l_m L))) <= v_move v) l m ->
      Forall2 (fun r x => m_rho_min (l_m L) <= x <= m_rho_max (l_m L) /\ Rabs (x - r) <= v_move v) l m).
    { clear. induction 1 as [|r l Hr _ IH]; intros m Hf; inversion Hf as [|? x ? m' (H1 & H2) H3]; subst; constructor; auto. rewrite clip_id in H2 by lra. auto. }
    apply G; [|exact C]. apply Forall_forall. intros x Hx. unfold gather in Hx. apply in_map_iff in Hx. destruct Hx as (e & <- & He).
    destruct (sets_of T _ pb HT Hpk) as (_ & HD & _). apply HD in He. pose proof He as (Hin & _). exact (proj1 (proj2 Hok e (Hdes e Hin)) He). }
  destruct (placed_keeps_bounds T (loop_cfg L) pb (ls_rho s) (lo_rho o) (v_move v) HT Hpk Hdes Hm Hok F) as (A1 & A2 & A3 & A4 & A5).
  repeat (split; [assumption|]). rewrite (C24_update_applies_dual_step _ _ _ _ Ho). now apply dual_step_bounds.
Qed.
Print Assumptions C95_iteration_keeps_bounds.

Theorem C95_run_keeps_bounds t T L val_init restart rho0 f sched l :
  made_from t T L -> 0 < m_rho_min (l_m L) <= m_rho_max (l_m L) -> m_lambda_lower (l_m L) <= m_lambda_upper (l_m L) ->
  (forall i v, In (i, v) sched -> 0 <= v_move v) ->
  (forall data, restart = Some data -> forall x, In x data -> m_rho_min (l_m L) <= x <= m_rho_max (l_m L)) ->
  initialize_density (element_task t) (loop_cfg L) val_init restart = Ok rho0 ->
  lm_optimize t L sched (lm_start L rho0 f) = Ok l ->
  densities_ok T (loop_cfg L) rho0 /\ List.length l = List.length sched /\
  forall st, In st l -> densities_ok T (loop_cfg L) (ls_rho st) /\ m_lambda_lower (l_m L) <= lambda_v (ls_opt st) <= m_lambda_upper (l_m L).
Proof.
  intros HM Hb Hl Hm Hre Hi Hrun. pose proof HM as (HT & Hpk & Hdes).
  destruct (C26_initial_densities T (loop_cfg L) (element_task t) val_init restart rho0 HT Hpk Hdes (proj2 Hb) Hre Hi) as (Hok & _). split; [exact Hok|].
  change rho0 with (ls_rho (lm_start L rho0 f)) in Hok. clear Hi.
  revert l Hok Hrun. generalize (lm_start L rho0 f) as st. induction sched as [|[i v] sched IH]; intros st l Hok H; cbn [lm_optimize] in H.
  - injection H as <-. split; [reflexivity|easy].
  - destruct (lm_iterate t L v i st) as [s1|] eqn:E1; [|discriminate]. cbn [bind] in H.
    destruct (lm_optimize t L sched s1) as [l1|] eqn:E2; [|discriminate]. cbn [bind] in H. injection H as <-.
    destruct (C95_iteration_keeps_bounds t T L v i st s1 HM Hb Hl (Hm i v (or_introl eq_refl)) Hok E1) as (Hok1 & _ & _ & _ & _ & Hl1).
    destruct (IH (fun i' v' Hv => Hm i' v' (or_intror Hv)) s1 l1 Hok1 E2) as (IL & IF).
    split; [cbn; lia|]. intros s' [<-|Hs']; auto.
Qed.
Print Assumptions C95_run_keeps_bounds.

(* ---- success ---- *)
Lemma analyse_ok t T L v f rho : made_from t T L -> ready t T L v f -> 0 < m_rho_min (l_m L) <= m_rho_max (l_m L) ->
  densities_ok T (loop_cfg L) rho ->
  exists ev, analyse t L v f rho = Ok (f2 v f, ev) /\ ev_filtered ev = filtered v f rho /\ ev_projected ev = projected (loop_cfg L) v f rho /\
    List.length (ev_dC ev) = List.length rho.
Proof.
  intros (HT & Hpk & Hdes) HR Hb Hok. set (c := loop_cfg L) in *. destruct (sets_of T c _ HT Hpk) as (_ & HD & _).
  assert (Hrho : forall e, 0 <= nth e rho 0 /\ (m_rho_max (l_m L) <= 1 -> nth e rho 0 <= 1)).
  { intros e. destruct Hok as (Hlen & Hok). destruct (Nat.lt_ge_cases e (List.length (ta_t T))) as [He|He].
    - destruct (in_dec Nat.eq_dec e (d_design (pb_dom (element_task t)))) as [Q|Q]; rewrite HD in Q.
      + pose proof (proj1 (Hok e He) Q) as B. cbn [c loop_cfg i_oc c_rho_min c_rho_max] in B. lra.
      + rewrite (proj2 (Hok e He) Q). lra.
    - rewrite nth_overflow by lia. lra. }
  pose proof (proj1 Hok) as Hlen. destruct t as [pb|P]; cbn [ready analyse element_task] in *; fold c in HR |- *.
  - destruct HR as (_ & _ & WP & Hc & Hr).
    assert (Hramp : i_interp c = RAMP -> forall e, nth e rho 0 <= 1) by (intros Q e; apply (proj2 (Hrho e)), Hr, Q).
    destruct (evaluate_total pb c v f rho WP ltac:(congruence) (fun e _ => modulus_ok pb c v f rho WP (fun e => proj1 (Hrho e)) Hramp e)) as (El & _ & _ & HQ).
    eexists. split; [exact HQ|]. cbn [ev_filtered ev_projected ev_dC]. split; [reflexivity|]. split; [reflexivity|].
    destruct (i_sens_filter c); unfold filtered, dCfull; rewrite map_length, seq_length; congruence.
  - destruct HR as (Hdd & H1 & s & D & A & values & HP & HR). pose proof HP as (_ & _ & _ & Hn & _).
    destruct (heat_evaluate_eq T s D A values c P v f rho HP HR ltac:(congruence) (fun e => conj (proj1 (Hrho e)) (proj2 (Hrho e) H1)))
      as (Js & Ts & Ls & E & G & _ & _ & _ & _ & _ & _ & _ & Q).
    eexists. split; [exact Q|]. cbn [ev_filtered ev_projected ev_dC]. split; [reflexivity|]. split; [reflexivity|].
    pose proof (hr_centers _ _ _ _ _ _ HR) as Hc. destruct (i_sens_filter c); unfold filtered, dC_heat; rewrite map_length, seq_length; congruence.
Qed.
Lemma lm_update_total m st a : ((la_iter a <= 1)%Z \/ running_scale st <> None) -> exists o, lm_rho_update m st a = Ok o /\ running_scale (lo_state o) <> None.
Proof.
  intros H. unfold lm_rho_update, lm_running. destruct (Z.ltb_spec 1 (la_iter a)) as [Hi|Hi].
  - destruct (running_scale st) as [r|]; [|destruct H; [lia|congruence]]. cbn [bind]. eexists. split; [reflexivity|]. cbn. discriminate.
  - cbn [bind]. eexists. split; [reflexivity|]. cbn. discriminate.
Qed.

Theorem C95_iteration_succeeds t T L v i s :
  made_from t T L -> ready t T L v (ls_filter s) -> 0 < m_rho_min (l_m L) <= m_rho_max (l_m L) ->
  densities_ok T (loop_cfg L) (ls_rho s) -> (exists e, designed T (loop_cfg L) e) ->
  ((i <= 1)%Z \/ running_scale (ls_opt s) <> None) ->
  exists s', lm_iterate t L v i s = Ok s' /\ running_scale (ls_opt s') <> None /\
    sf_centers (ls_filter s') = sf_centers (ls_filter s) /\ sf_mask (ls_filter s') = sf_mask (ls_filter s).
Proof.
  intros HM HR Hb Hok _ Hi. destruct (analyse_ok t T L v _ _ HM HR Hb Hok) as (ev & E & _).
  unfold lm_iterate. rewrite E. cbn [bind]. unfold lm_advance.
  destruct (lm_update_total (l_m L) (ls_opt s) (lm_args_of (element_task t) v i (ls_rho s) (f2 v (ls_filter s)) ev) Hi) as (o & Ho & Hrs).
  rewrite Ho. cbn [bind]. eexists. split; [reflexivity|]. cbn [ls_opt ls_filter]. split; [exact Hrs|]. split; reflexivity.
Qed.
Print Assumptions C95_iteration_succeeds.
Lemma ready_same t T L v f g : sf_centers g = sf_centers f -> sf_mask g = sf_mask f -> ready t T L v f -> ready t T L v g.
Proof.
  intros Ec Em H. destruct t as [pb|P]; cbn [ready] in *.
  - destruct H as (H1 & H2 & H3 & H4 & H5). repeat (split; [assumption|]). split; [|split; [congruence|assumption]].
    eapply wp_same; [symmetry; exact Ec|symmetry; exact Em|exact H3].
  - destruct H as (H1 & H2 & s & D & A & values & HP & HR). split; [exact H1|]. split; [exact H2|]. exists s, D, A, values. split; [exact HP|].
    exact (heat_ready_same _ _ _ _ _ _ _ Ec Em HR).
Qed.

(* a run by a new optimizer never fails, whatever the signs of the sensitivities *)
Theorem C95_fresh_run_succeeds t T L v i sched rho f :
  made_from t T L -> 0 < m_rho_min (l_m L) <= m_rho_max (l_m L) -> m_lambda_lower (l_m L) <= m_lambda_upper (l_m L) ->
  (forall i' v', In (i', v') ((i, v) :: sched) -> 0 <= v_move v' /\ ready t T L v' f) ->
  densities_ok T (loop_cfg L) rho -> (exists e, designed T (loop_cfg L) e) -> (i <= 1)%Z ->
  exists l, lm_optimize t L ((i, v) :: sched) (lm_start L rho f) = Ok l.
Proof.
  intros HM Hb Hl Hv Hok Hex Hi.
  assert (G : forall sched s, (forall i' v', In (i', v') sched -> 0 <= v_move v' /\ ready t T L v' (ls_filter s)) ->
    densities_ok T (loop_cfg L) (ls_rho s) -> (sched = [] \/ (exists i v r, sched = (i, v) :: r /\ (i <= 1)%Z) \/ running_scale (ls_opt s) <> None) ->
    exists l, lm_optimize t L sched s = Ok l).
  { clear Hv Hok Hi. induction sched0 as [|[j w] r IH]; intros s Hv Hok Hs; cbn [lm_optimize].
    - now exists [].
    - destruct (Hv j w) as (Hm & HR); [now left|].
      assert (Hj : (j <= 1)%Z \/ running_scale (ls_opt s) <> None) by (destruct Hs as [Hs|[(? & ? & ? & [= -> -> ->] & Hs)|Hs]]; [discriminate|auto|auto]).
      destruct (C95_iteration_succeeds t T L w j s HM HR Hb Hok Hex Hj) as (s1 & E1 & Hr1 & Ec & Em). rewrite E1. cbn [bind].
      destruct (C95_iteration_keeps_bounds t T L w j s s1 HM Hb Hl Hm Hok E1) as (Hok1 & _).
      destruct (IH s1) as (l & El); [|exact Hok1|auto|].
      + intros i' v' Hi'. destruct (Hv i' v' (or_intror Hi')) as (Hm' & HR'). split; [exact Hm'|]. exact (ready_same _ _ _ _ _ _ Ec Em HR').
      + rewrite El. cbn [bind]. eauto. }
  apply G; [exact Hv|exact Hok|]. right. left. eauto.
Qed.
Print Assumptions C95_fresh_run_succeeds.

(* REFUTED: a new optimizer that resumes after the first iteration fails, with any
   sound task and densities *)
Theorem C95_resumed_run_refuted t T L v i sched rho f :
  made_from t T L -> ready t T L v f -> 0 < m_rho_min (l_m L) <= m_rho_max (l_m L) -> densities_ok T (loop_cfg L) rho -> (1 < i)%Z ->
  lm_optimize t L ((i, v) :: sched) (lm_start L rho f) = Err AttributeError.
Proof.
  intros HM HR Hb Hok Hi. destruct (analyse_ok t T L v f rho HM HR Hb Hok) as (ev & E & _).
  cbn [lm_optimize]. unfold lm_iterate. cbn [lm_start ls_filter ls_rho]. rewrite E. cbn [bind]. unfold lm_advance. cbn [ls_opt ls_rho].
  unfold lm_rho_update, lm_running. cbn [lm_args_of la_iter lm_init running_scale].
  rewrite (proj2 (Z.ltb_lt 1 i) Hi). reflexivity.
Qed.
Print Assumptions C95_resumed_run_refuted.

(* ---- the multiplier follows the volume error of the design before the update ---- *)
Lemma lm_error_is pb v i rho f ev L : sf_map f rho = ev_filtered ev ->
  ev_projected ev = map (fun x => heaviside_projection x (v_beta v) (m_beta_eta (l_m L))) (ev_filtered ev) ->
  (forall e, In e (d_design (pb_dom pb)) -> (e < List.length (ev_filtered ev))%nat) ->
  lm_vol_error (lm_args_of pb v i rho f ev) = fraction_of pb (loop_cfg L) v f rho - v_vol_frac v.
Proof.
  intros E1 E2 Hin. unfold lm_vol_error. cbn [lm_args_of la_rho_projected la_design la_volumes la_vol_sum la_vol_frac].
  rewrite (fraction_sum pb (loop_cfg L) v f rho). rewrite E1, E2. cbn [loop_cfg i_oc c_beta_eta]. unfold gather. f_equal.
  set (V := rsum (map (fun i0 => nth i0 (pb_volumes pb) 0) (d_design (pb_dom pb)))).
  assert (G : forall ids, (forall e, In e ids -> (e < List.length (ev_filtered ev))%nat) ->
    zipwith Rmult (map (fun i0 => nth i0 (map (fun x => heaviside_projection x (v_beta v) (m_beta_eta (l_m L))) (ev_filtered ev)) 0) ids) (map (fun i0 => nth i0 (pb_volumes pb) 0) ids)
    = map (fun e => heaviside_projection (nth e (ev_filtered ev) 0) (v_beta v) (m_beta_eta (l_m L)) * nth e (pb_volumes pb) 0) ids).
  { induction ids as [|e ids IH]; intros Hi; [reflexivity|]. cbn [map zipwith]. rewrite IH by (intros; apply Hi; now right). f_equal. f_equal.
    apply (nth_mapR (fun x => heaviside_projection x (v_beta v) (m_beta_eta (l_m L)))). apply Hi. now left. }
  rewrite G by exact Hin. unfold Rdiv. rewrite <- rs_scal_r. apply rs_ext. intros e _. ring.
Qed.
Lemma ready_wp t T L v f : ready t T L v f -> exists pb c, well_posed pb c v f /\ List.length (sf_centers f) = List.length (ta_t T).
Proof.
  destruct t as [pb|P]; cbn [ready].
  - intros (_ & _ & WP & Hc & _). eauto.
  - intros (_ & _ & s & D & A & values & HP & HR). exists (bare (ne (hs_H s))), (bare_cfg (loop_cfg L)). split; [exact (bare_wp _ _ _ _ _ _ HR)|].
    pose proof HP as (_ & _ & _ & Hn & _). rewrite Hn. apply (hr_centers _ _ _ _ _ _ HR).
Qed.
Theorem C95_multiplier_follows_volume t T L v i s s' :
  made_from t T L -> ready t T L v (ls_filter s) -> 0 < m_rho_min (l_m L) <= m_rho_max (l_m L) ->
  densities_ok T (loop_cfg L) (ls_rho s) -> lm_iterate t L v i s = Ok s' ->
  lambda_v (ls_opt s') = next_multiplier (l_m L) i (lambda_v (ls_opt s))
    (fraction_of (element_task t) (loop_cfg L) v (ls_filter s') (ls_rho s) - v_vol_frac v).
Proof.
  intros HM HR Hb Hok H. destruct (analyse_ok t T L v _ _ HM HR Hb Hok) as (ev & E & E1 & E2 & _). unfold lm_iterate in H. rewrite E in H. cbn [bind] in H.
  destruct (lm_advance_inv _ _ _ _ _ _ _ _ H) as (o & Ho & ->). cbn [ls_opt ls_filter].
  rewrite (C24_update_applies_dual_step _ _ _ _ Ho).
  destruct (ready_wp _ _ _ _ _ HR) as (pb0 & c0 & WP & Hc). pose proof HM as (HT & Hpk & Hdes). destruct (sets_of T _ _ HT Hpk) as (_ & HD & _).
  rewrite (lm_error_is _ v i (ls_rho s) (f2 v (ls_filter s)) ev L).
  - cbn [lm_args_of la_iter]. unfold dual_step, next_multiplier, clip.
    destruct (Z.leb_spec i 1) as [Hi|Hi]; [rewrite (proj2 (Z.ltb_ge 1 i)) by lia; now destruct (m_augmented (l_m L))|].
    rewrite (proj2 (Z.ltb_lt 1 i)) by lia. reflexivity.
  - unfold sf_map. rewrite (f2_forward pb0 c0 v _ _ WP) by (rewrite Hc; apply Hok). now rewrite E1.
  - rewrite E2, E1. reflexivity.
  - intros e He. rewrite E1. unfold filtered. rewrite map_length, seq_length, Hc. apply HD in He. destruct He as (He & _). auto.
Qed.
Print Assumptions C95_multiplier_follows_volume.

(* ---- the step goes down the Lagrangian of what the iteration reports ---- *)
Lemma unit_nth n e i : nth i (unit_dir n e) 0 = if (Nat.eqb i e && Nat.ltb i n)%bool then 1 else 0.
Proof.
  unfold unit_dir. destruct (Nat.ltb_spec i n) as [H|H].
  - rewrite nth_map_seq' by exact H. now rewrite andb_true_r.
  - rewrite andb_false_r. apply nth_overflow. now rewrite map_length, seq_length.
Qed.
Lemma unit_sum n e (g : nat -> R) l : (e < n)%nat -> NoDup l -> In e l -> rsum (map (fun i => nth i (unit_dir n e) 0 * g i) l) = g e.
Proof.
  intros He. induction l as [|x l IH]; intros Hn Hi; [easy|]. inversion Hn as [|? ? Hx Hn']; subst. cbn [map rsum fold_right]. fold (rsum (map (fun i => nth i (unit_dir n e) 0 * g i) l)).
  rewrite unit_nth. destruct Hi as [->|Hi].
  - rewrite Nat.eqb_refl, (proj2 (Nat.ltb_lt e n) He). cbn [andb]. rewrite rs_zero; [lra|]. intros y Hy. rewrite unit_nth.
    destruct (Nat.eqb_spec y e) as [->|]; [contradiction|]. cbn [andb]. lra.
  - rewrite IH by assumption. destruct (Nat.eqb_spec x e) as [->|]; [contradiction|]. cbn [andb]. lra.
Qed.
Lemma unit_len n e : List.length (unit_dir n e) = n.
Proof. unfold unit_dir. now rewrite map_length, seq_length. Qed.

Definition dVf_of (pb : problem) (L : lcfg) (v : ivals) (rf : list R) : list R :=
  zipwith Rmult (map (fun x => heaviside_projection_derivative x (v_beta v) (m_beta_eta (l_m L))) rf)
    (scatter (map (fun _ => 0) rf) (d_design (pb_dom pb)) (dV_design (gather (pb_volumes pb) (d_design (pb_dom pb))) (rsum (gather (pb_volumes pb) (d_design (pb_dom pb)))))).
Lemma dVf_nth pb L v rf e : NoDup (d_design (pb_dom pb)) -> (forall i, In i (d_design (pb_dom pb)) -> (i < List.length rf)%nat) -> In e (d_design (pb_dom pb)) ->
  nth e (dVf_of pb L v rf) 0 = nth e (pb_volumes pb) 0 / rsum (map (fun e => nth e (pb_volumes pb) 0) (d_design (pb_dom pb))) *
     heaviside_projection_derivative (nth e rf 0) (v_beta v) (c_beta_eta (i_oc (loop_cfg L))).
Proof.
  intros Hn Hr He. unfold dVf_of. set (D := d_design (pb_dom pb)) in *.
  assert (Ls : List.length (scatter (map (fun _ => 0) rf) D (dV_design (gather (pb_volumes pb) D) (rsum (gather (pb_volumes pb) D)))) = List.length rf) by (rewrite scatter_len, map_length; reflexivity).
  rewrite (zip_nth _ _ _ e 0 0) by (rewrite ?map_length, ?Ls; auto).
  rewrite (nth_mapR (fun x => heaviside_projection_derivative x (v_beta v) (m_beta_eta (l_m L)))) by auto.
  assert (Ld : List.length (dV_design (gather (pb_volumes pb) D) (rsum (gather (pb_volumes pb) D))) = List.length D) by (unfold dV_design; now rewrite map_length, gather_len).
  destruct (scatter_in D (map (fun _ => 0) rf) (dV_design (gather (pb_volumes pb) D) (rsum (gather (pb_volumes pb) D))) e He ltac:(intros; rewrite map_length; auto) Ld) as (k & Hk & Ek & ->).
  unfold dV_design. rewrite (nth_mapR (fun v0 => v0 / rsum (gather (pb_volumes pb) D))) by (rewrite gather_len; exact Hk). rewrite gather_nth by exact Hk. rewrite Ek.
  cbn [loop_cfg i_oc c_beta_eta]. unfold gather. ring.
Qed.
Lemma allclose0_false l e : 1 / 100000000 < Rabs (nth e l 0) -> allclose0 l = false.
Proof.
  intros H. unfold allclose0. apply Bool.not_true_iff_false. rewrite forallb_forall. intros Q.
  destruct (Nat.lt_ge_cases e (List.length l)) as [He|He].
  - specialize (Q (nth e l 0) (nth_In l 0 He)). apply Rleb_true in Q. lra.
  - rewrite nth_overflow in H by exact He. rewrite Rabs_R0 in H. lra.
Qed.

Theorem C95_step_descends_the_lagrangian T L pb v i s s' ev :
  made_from (Elastic pb) T L -> ready (Elastic pb) T L v (ls_filter s) -> 0 < m_rho_min (l_m L) <= m_rho_max (l_m L) ->
  NoDup (ta_design T) -> mask_of_design pb (ls_filter s) ->
  l_interp L = SIMP -> l_sens_filter L = false ->
  m_filter_lagrangian (l_m L) = false -> m_center_lagrangian (l_m L) = false -> m_center_objective (l_m L) = false ->
  0 <= v_move v -> 0 <= v_eta v -> 0 <= m_lclip (l_m L) -> 0 < m_lfloor (l_m L) ->
  (forall r, running_scale (ls_opt s) = Some r -> 0 < r) ->
  densities_ok T (loop_cfg L) (ls_rho s) -> lm_iterate (Elastic pb) L v i s = Ok s' -> ls_eval s' = Some ev ->
  (forall e, designed T (loop_cfg L) e -> 1 / 1000000 < nth e (ev_projected ev) 0) ->
  let n := List.length (ls_rho s) in
  let frac := fraction_of pb (loop_cfg L) v (ls_filter s') in
  let comp := reported_compliance pb (loop_cfg L) v (ls_filter s) in
  (* some element's volume share is not negligible (np.allclose) *)
  (exists e rate, designed T (loop_cfg L) e /\ derivable_pt_lim (fun t => frac (line (ls_rho s) (unit_dir n e) t)) 0 rate /\ 1 / 100000000 < Rabs rate) ->
  exists weight,
    (m_normalize (l_m L) = false -> weight = 1) /\
    (0 < m_gain (l_m L) -> (forall g, m_gain_under (l_m L) = Some g -> 0 < g) -> 0 < m_vfloor (l_m L) -> 0 < weight) /\
    let coeff := lambda_v (ls_opt s') + m_aug_mu (l_m L) * (frac (ls_rho s) - v_vol_frac v) in
    forall e, designed T (loop_cfg L) e -> exists slope,
      derivable_pt_lim (fun t => comp (line (ls_rho s) (unit_dir n e) t) + coeff * weight * frac (line (ls_rho s) (unit_dir n e) t)) 0 slope /\
      let old := nth e (ls_rho s) 0 in let new := nth e (ls_rho s') 0 in
      (0 <= slope -> new <= old) /\ (slope <= 0 -> old <= new) /\
      (0 < slope -> 0 < v_eta v -> 0 < m_lclip (l_m L) -> 0 < v_move v -> m_rho_min (l_m L) < old -> new < old) /\
      (slope < 0 -> 0 < v_eta v -> 0 < m_lclip (l_m L) -> 0 < v_move v -> old < m_rho_max (l_m L) -> old < new).
Proof.
  intros HM HR Hb Hnd Hmask Hsimp Hsf F1 F2 F3 Hmv Heta Hcl Hfl Hrs Hok H Hev Hproj n frac comp Hshare.
  destruct (analyse_ok _ T L v _ _ HM HR Hb Hok) as (ev0 & E & E1 & E2 & E3). unfold lm_iterate in H. rewrite E in H. cbn [bind] in H.
  destruct (lm_advance_inv _ _ _ _ _ _ _ _ H) as (o & Ho & Es). cbn [element_task] in Ho, Es. rewrite Es in Hev. cbn [ls_eval] in Hev. injection Hev as ->.
  pose proof HM as (HT & Hpk & Hdes). cbn [element_task] in HT. destruct (sets_of T _ pb HT Hpk) as (_ & HD & l & Hp & HL1 & _).
  cbn [ready] in HR. destruct HR as (_ & _ & WP & Hc & _). set (c := loop_cfg L) in *. set (f := ls_filter s) in *. set (rho := ls_rho s) in *.
  set (D := d_design (pb_dom pb)) in *. pose proof (proj1 Hok) as Hlen.
  assert (Hnc : n = List.length (sf_centers f)) by (unfold n; congruence).
  assert (HDn : forall e, In e D -> (e < n)%nat) by (intros e He; apply HD in He; destruct He as (He & _); unfold n; rewrite Hlen; auto).
  pose proof (design_nodup T c pb HT Hnd) as HnD. fold D in HnD.
  assert (Ef : ls_filter s' = f2 v f) by (rewrite Es; reflexivity).
  assert (Hu : usable (f2 v f)) by (split; [apply (wp_radius _ _ _ _ WP)|exact (wp_design _ _ _ _ WP)]).
  assert (Hm2 : mask_of_design pb (f2 v f)) by exact Hmask.
  pose proof (f2_forward pb c v f rho WP ltac:(congruence)) as Hfw.
  set (rf := filtered v f rho) in *. assert (Lrf : List.length rf = n) by (unfold rf, filtered; now rewrite map_length, seq_length).
  set (y := dVf_of pb L v rf).
  assert (Ly : List.length y = n).
  { unfold y, dVf_of. rewrite zipwith_length; rewrite ?scatter_len, ?map_length; auto. }
  assert (Hy : forall e, In e D -> nth e y 0 = nth e (pb_volumes pb) 0 / rsum (map (fun e => nth e (pb_volumes pb) 0) D) *
     heaviside_projection_derivative (nth e rf 0) (v_beta v) (c_beta_eta (i_oc c))).
  { intros e He. unfold y. apply dVf_nth; auto. intros. rewrite Lrf. auto. }
  pose proof (gradient2 v f y ltac:(congruence)) as Hg. set (g := map _ _) in Hg.
  assert (HV : forall e, In e D -> derivable_pt_lim (fun t => frac (line rho (unit_dir n e) t)) 0 (nth e g 0)).
  { intros e He. unfold frac. rewrite Ef. rewrite <- (unit_sum n e (fun i => nth i g 0) D (HDn e He) HnD He).
    apply (C65_volume_gradient pb c v (f2 v f) rho (unit_dir n e) (f2 v f) rf y g Hu Hm2).
    - cbn. congruence. - cbn. rewrite unit_len. congruence.
    - intros i' Hi'. rewrite unit_nth. destruct (Nat.eqb_spec i' e) as [->|]; [contradiction|reflexivity].
    - exact Hfw. - cbn. congruence. - exact Hy. - exact Hg. }
  assert (Hback : (if allclose0 (sf_grad (f2 v f) y) && existsb (fun x => Rltb 0 x) y then sf_map (f2 v f) y else sf_grad (f2 v f) y) = g).
  { unfold sf_grad. rewrite Hg. destruct Hshare as (e & rate & He & Hd & Hr). apply HD in He.
    rewrite <- (uniqueness_limite _ _ _ _ (HV e He) Hd) in Hr. now rewrite (allclose0_false g e Hr). }
  set (a := lm_args_of pb v i rho (f2 v f) ev) in *.
  assert (Echain : volume_chain (l_m L) a = gather g D).
  { unfold volume_chain, a. cbn [lm_args_of la_rho_filtered la_design la_volumes la_vol_sum la_beta la_gradient la_forward]. rewrite E1.
    change (gather (if allclose0 (sf_grad (f2 v f) y) && existsb (fun x => Rltb 0 x) y then sf_map (f2 v f) y else sf_grad (f2 v f) y) D = gather g D). now rewrite Hback. }
  assert (Eerr : lm_vol_error a = frac rho - v_vol_frac v).
  { unfold frac. rewrite Ef. apply (lm_error_is pb v i rho (f2 v f) ev L).
    - unfold sf_map. rewrite Hfw. now rewrite E1. - rewrite E2, E1. reflexivity. - intros e He. rewrite E1. fold rf. rewrite Lrf. auto. }
  unfold lm_rho_update in Ho. set (lam := dual_step _ _ _ _) in Ho. set (dL := lagrangian_gradient (l_m L) a lam) in Ho.
  destruct (lm_running (l_m L) a (running_scale (ls_opt s)) dL) as [rs|] eqn:Ers; [|discriminate]. cbn [bind] in Ho.
  pose proof (lm_running_pos _ _ _ _ _ Hfl Hrs Ers) as Hrp.
  assert (Elam : lambda_v (ls_opt s') = lam) by (rewrite Es; cbn [ls_opt]; injection Ho as <-; reflexivity).
  assert (Erho : lo_rho o = zipwith (fun r d => lagrangian_log_update r d (v_eta v) (v_move v) (m_rho_min (l_m L)) (m_rho_max (l_m L)) (m_lclip (l_m L))) (gather rho D) (map (fun x => x / rs) dL)) by (injection Ho as <-; reflexivity).
  clear Ho. set (coeff := lam + m_aug_mu (l_m L) * (frac rho - v_vol_frac v)).
  set (weight := chain_scale (l_m L) (la_dC a) (gather g D) (frac rho - v_vol_frac v)).
  assert (EdL : dL = map (fun e => nth e (ev_dC ev) 0 + coeff * weight * nth e g 0) D).
  { unfold dL, lagrangian_gradient. rewrite F1, F2, F3, Echain, Eerr. fold coeff. fold weight. unfold a. cbn [lm_args_of la_dC]. fold D. unfold gather.
    clearbody weight coeff g D. clear. induction D as [|e D IH]; [reflexivity|]. cbn [map zipwith]. rewrite IH. f_equal. ring. }
  exists weight. split; [intros Q; unfold weight, chain_scale; now rewrite Q|]. split.
  { intros G1 G2 G3. unfold weight, chain_scale. destruct (m_normalize (l_m L)); [|lra].
    apply Rmult_lt_0_compat; [destruct (m_gain_under (l_m L)) as [gu|]; [|exact G1]; destruct (Rltb _ 0); auto|].
    apply Rdiv_lt_0_compat; [eapply Rlt_le_trans; [exact Hfl|apply Rmax_r]|eapply Rlt_le_trans; [exact G3|apply Rmax_r]]. }
  intros coeff' e He. assert (Ec : coeff' = coeff) by (unfold coeff', coeff; now rewrite Elam). rewrite Ec. clear coeff' Ec.
  pose proof (proj2 (HD e) He) as HeD. exists (nth e (ev_dC ev) 0 + coeff * weight * nth e g 0). split.
  - assert (Hn0 : forall x, 0 <= nth x rho 0).
    { intros x. destruct Hok as (_ & Hok). destruct (Nat.lt_ge_cases x (List.length (ta_t T))) as [Hx|Hx].
      - destruct (in_dec Nat.eq_dec x D) as [Q|Q]; rewrite HD in Q.
        + pose proof (proj1 (Hok x Hx) Q) as B. cbn [c loop_cfg i_oc c_rho_min c_rho_max] in B. lra.
        + rewrite (proj2 (Hok x Hx) Q). lra.
      - rewrite nth_overflow by lia. lra. }
    destruct (C62_reported_sensitivity_is_the_gradient pb c v f rho (unit_dir n e) (f2 v f) ev WP Hsimp Hsf) as (_ & Dc).
    + congruence. + rewrite unit_len. congruence. + exact Hn0.
    + intros x Hx. rewrite unit_nth. destruct (Nat.eqb_spec x e) as [->|]; [|reflexivity]. apply (proj2 Hmask) in HeD. destruct HeD as (_ & HeD). congruence.
    + exact E.
    + intros x Hx Hx'. apply Hproj, HD, (proj2 Hmask). auto.
    + rewrite <- Hnc in Dc. rewrite (unit_sum n e (fun x => nth x (ev_dC ev) 0) (seq 0 n)) in Dc; [|auto|apply seq_NoDup|apply in_seq; split; [lia|cbn; auto]].
      apply (derivable_pt_lim_plus (fun t => comp (line rho (unit_dir n e) t)) (fun t => coeff * weight * frac (line rho (unit_dir n e) t))); [exact Dc|].
      apply (derivable_pt_lim_scal (fun t => frac (line rho (unit_dir n e) t)) (coeff * weight)). exact (HV e HeD).
  - assert (Enew : nth e (ls_rho s') 0 = lagrangian_log_update (nth e rho 0) ((nth e (ev_dC ev) 0 + coeff * weight * nth e g 0) / rs) (v_eta v) (v_move v) (m_rho_min (l_m L)) (m_rho_max (l_m L)) (m_lclip (l_m L))).
    { rewrite Es. cbn [ls_rho]. rewrite Hp, Erho, EdL, map_map. set (new := zipwith _ _ _).
      assert (Ln : List.length new = List.length D) by (unfold new; rewrite zipwith_length; rewrite ?gather_len, ?map_length; reflexivity).
      assert (R0 : forall x, In x D -> (x < List.length rho)%nat) by (intros x Hx; apply HDn in Hx; exact Hx).
      rewrite pin_nth by (intros x Hx; rewrite scatter_len, Hlen; now apply HL1).
      destruct (in_dec Nat.eq_dec e l) as [Q|Q]; [apply HL1 in Q; tauto|].
      destruct (scatter_in D rho new e HeD R0 Ln) as (k & Hk & Ek & ->).
      unfold new. rewrite (zip_nth _ _ _ k 0 0) by (rewrite ?gather_len, ?map_length; auto). rewrite gather_nth by exact Hk. rewrite Ek. f_equal.
      rewrite (nth_indep _ 0 ((fun x => (nth x (ev_dC ev) 0 + coeff * weight * nth x g 0) / rs) 0%nat)) by (rewrite map_length; exact Hk).
      rewrite (map_nth (fun x => (nth x (ev_dC ev) 0 + coeff * weight * nth x g 0) / rs)). now rewrite Ek. }
    cbn zeta. rewrite Enew. set (sl := nth e (ev_dC ev) 0 + coeff * weight * nth e g 0).
    assert (Hold : m_rho_min (l_m L) <= nth e rho 0 <= m_rho_max (l_m L)) by (apply HDn in HeD; destruct Hok as (_ & Hok); exact (proj1 (Hok e ltac:(unfold n in HeD; lia)) He)).
    destruct (C23_element_update_direction (nth e rho 0) (sl / rs) (v_eta v) (v_move v) (m_rho_min (l_m L)) (m_rho_max (l_m L)) (m_lclip (l_m L)) Hb Hmv Heta Hcl) as (D1 & D2 & _ & D4 & D5).
    rewrite (clip_id (nth e rho 0)) in D1, D2, D4, D5 by lra.
    assert (Hi : 0 < / rs) by now apply Rinv_0_lt_compat. unfold Rdiv in D1, D2, D4, D5 |- *.
    split; [intros Q; apply D1; nra|]. split; [intros Q; apply D2; nra|]. split; [intros Q; apply D4; nra|]. intros Q; apply D5; nra.
Qed.
Print Assumptions C95_step_descends_the_lagrangian.

(* on a heat task design_dirichlet=True sets every density to 1, as with OC (C94) *)
Theorem C95_design_dirichlet_resets_all T s A values L P : heat_problem T s A values (loop_cfg L) P -> l_design_dirichlet L = true ->
  forall v i st st', lm_iterate (HeatTask P) L v i st = Ok st' -> forall e, (e < List.length (ls_rho st'))%nat -> nth e (ls_rho st') 0 = 1.
Proof.
  intros (HT & Hn & _) Hdd v i st st' H e He. destruct HT as (d & Hd & Hpb). destruct (from_nodes_inv _ _ _ _ _ _ _ _ _ Hd) as (_ & _ & _ & _ & _ & _ & _ & _ & Hnone).
  assert (Hp : pins (plain P) (loop_cfg L) = None).
  { unfold pins. cbn [loop_cfg i_design_dirichlet] in *. rewrite Hdd in *. rewrite Hpb. now apply Hnone. }
  unfold lm_iterate in H. destruct (analyse (HeatTask P) L v (ls_filter st) (ls_rho st)) as [[f ev]|]; [|discriminate]. cbn [bind] in H.
  destruct (lm_advance_inv _ _ _ _ _ _ _ _ H) as (o & _ & Es). rewrite Es in *. cbn [ls_rho element_task] in *. rewrite Hp in *. cbn [pin] in *.
  rewrite map_length in He. rewrite (nth_indep _ 0 1) by now rewrite map_length. exact (map_nth (fun _ => 1) _ 1 e).
Qed.
Print Assumptions C95_design_dirichlet_resets_all.

(* ---- instances ---- *)
Definition ex_L := mkLC ex_lm (1/1000) SIMP false true.
Lemma ex_made : made_from (Elastic ex_pb) ex_T ex_L.
Proof. split; [exact ex_built|]. split; [left; discriminate|]. intros e [<-|[<-|[]]]; cbn; lia. Qed.
Lemma ex_ready : ready (Elastic ex_pb) ex_T ex_L ex_v ex_filter.
Proof.
  split; [exact ex_built|]. split; [left; discriminate|]. split; [|split; [reflexivity|discriminate]].
  constructor; cbn; try lra.
  - reflexivity. - exists 0%nat. split; [lia|reflexivity]. - intros; lra. - discriminate. - apply ex_solver.
Qed.
Lemma ex_designs e : designed ex_T (loop_cfg ex_L) e <-> e = 0%nat.
Proof.
  destruct ex_made as (HT & Hp & _). destruct (sets_of ex_T _ _ HT Hp) as (_ & HD & _). rewrite <- HD.
  change (pb_dom (element_task (Elastic ex_pb))) with ex_dom. rewrite ex_dom_eq. cbn. intuition.
Qed.
Lemma ex_dens : densities_ok ex_T (loop_cfg ex_L) [1/2; 1].
Proof.
  split; [reflexivity|]. intros e He. rewrite ex_designs. cbn in He. cbn [loop_cfg ex_L l_m ex_lm m_rho_min m_rho_max i_oc c_rho_min c_rho_max].
  destruct e as [|[|]]; [| |lia]; cbn; split; intros Q; try lra; try lia; try easy.
Qed.
Theorem C95_elastic_instance :
  let s0 := lm_start ex_L [1/2; 1] ex_filter in
  initialize_density ex_pb (loop_cfg ex_L) (1/2) None = Ok [1/2; 1] /\
  (exists l, lm_optimize (Elastic ex_pb) ex_L [(1%Z, ex_v); (2%Z, ex_v); (3%Z, ex_v)] s0 = Ok l) /\
  lm_optimize (Elastic ex_pb) ex_L [(2%Z, ex_v); (3%Z, ex_v)] s0 = Err AttributeError /\
  exists s', lm_iterate (Elastic ex_pb) ex_L ex_v 1 s0 = Ok s' /\ exists slope,
    derivable_pt_lim (fun t => reported_compliance ex_pb (loop_cfg ex_L) ex_v ex_filter (line [1/2; 1] [1; 0] t) +
      lambda_v (ls_opt s') * fraction_of ex_pb (loop_cfg ex_L) ex_v (ls_filter s') (line [1/2; 1] [1; 0] t)) 0 slope /\
  (0 < slope -> nth 0 (ls_rho s') 0 < 1/2) /\ (slope < 0 -> 1/2 < nth 0 (ls_rho s') 0).
Proof.
  intros s0. assert (Hb : 0 < m_rho_min (l_m ex_L) <= m_rho_max (l_m ex_L)) by (cbn; lra).
  assert (Hv : forall i v, In (i, v) [(1%Z, ex_v); (2%Z, ex_v); (3%Z, ex_v)] -> v = ex_v) by (intros i v [E|[E|[E|[]]]]; congruence).
  split.
  { unfold initialize_density, pins. change (pb_dom ex_pb) with ex_dom. rewrite ex_dom_eq. cbn. f_equal. f_equal. unfold clip. rewrite Rmax_left, Rmin_left; lra. }
  split.
  { apply (C95_fresh_run_succeeds (Elastic ex_pb) ex_T ex_L ex_v 1 _ [1/2; 1] ex_filter ex_made Hb); try (cbn; lra).
    - intros i v Q. rewrite (Hv i v Q). split; [cbn; lra|exact ex_ready].
    - exact ex_dens. - exists 0%nat. now apply ex_designs. - lia. }
  split; [exact (C95_resumed_run_refuted _ _ _ _ 2 _ _ _ ex_made ex_ready Hb ex_dens ltac:(lia))|].
  destruct (C95_iteration_succeeds (Elastic ex_pb) ex_T ex_L ex_v 1 s0 ex_made ex_ready Hb ex_dens ltac:(exists 0%nat; now apply ex_designs) ltac:(left; lia)) as (s' & E & _).
  exists s'. split; [exact E|].
  destruct (analyse_ok _ _ _ _ _ _ ex_made ex_ready Hb ex_dens) as (ev & E1 & Ef & Ep & _).
  assert (Es : ls_eval s' = Some ev /\ ls_filter s' = f2 ex_v ex_filter).
  { unfold lm_iterate in E. cbn [s0 lm_start ls_filter ls_rho] in E. rewrite E1 in E. cbn [bind] in E. destruct (lm_advance_inv _ _ _ _ _ _ _ _ E) as (o & _ & ->). split; reflexivity. }
  destruct Es as (Ee & Efl).
  assert (M : mask_of_design ex_pb ex_filter).
  { unfold mask_of_design. change (pb_dom ex_pb) with ex_dom. rewrite ex_dom_eq. cbn [d_design]. split; [repeat constructor; easy|].
    intros e. split; [intros [<-|[]]; split; [cbn; lia|reflexivity]|]. intros (He & Hd). destruct e as [|[|e]]; [now left|discriminate|cbn in He; lia]. }
  assert (Hnd : NoDup (ta_design ex_T)) by (repeat constructor; cbn; intuition lia).
  assert (Hproj : forall e, designed ex_T (loop_cfg ex_L) e -> 1 / 1000000 < nth e (ev_projected ev) 0).
  { intros e He. apply ex_designs in He. subst e. rewrite Ep, projected_eq, nth_map_seq' by (cbn; lia). rewrite ex_filtered. apply ex_H. }
  destruct (C95_step_descends_the_lagrangian ex_T ex_L ex_pb ex_v 1 s0 s' ev ex_made ex_ready Hb Hnd M eq_refl eq_refl eq_refl eq_refl eq_refl) as (weight & Hw & _ & Hs);
    try (cbn; lra); try assumption; try exact ex_dens; try discriminate.
  { exists 0%nat.
    assert (U : usable (f2 ex_v ex_filter)) by (split; [cbn; lra|]; exists 0%nat; split; [cbn; lia|reflexivity]).
    destruct (C65_uniform_growth_rate ex_pb (loop_cfg ex_L) ex_v (f2 ex_v ex_filter) [1/2; 1] (1/2) U M eq_refl) as (A & _).
    - change (pb_dom ex_pb) with ex_dom. rewrite ex_dom_eq. cbn. lra.
    - change (pb_dom ex_pb) with ex_dom. rewrite ex_dom_eq. intros e [<-|[]]. reflexivity.
    - eexists. split; [now apply ex_designs|]. split; [rewrite Efl; exact A|].
      cbn [loop_cfg ex_L l_m ex_lm m_beta_eta i_oc c_beta_eta ex_v v_beta]. unfold heaviside_projection_derivative.
      replace (2 * (1/2 - 1/2)) with 0 by ring. rewrite tanh_0'. replace (2 * (1/2)) with 1 by lra. replace (2 * (1 - 1/2)) with 1 by lra.
      assert (T1 : 0 < tanh 1 < 1).
      { unfold tanh, sinh, cosh. set (b := exp (-(1))). set (a := exp 1).
        assert (Hb0 : 0 < b) by apply exp_pos. assert (Hab : b < a) by (apply exp_increasing; lra). clearbody a b.
        split; [apply Rdiv_lt_0_compat; lra|]. apply (Rmult_lt_reg_r ((a + b) / 2)); [lra|].
        replace ((a - b) / 2 / ((a + b) / 2) * ((a + b) / 2)) with ((a - b) / 2) by (field; lra). lra. }
      assert (Ht : 0 < tiny < 1) by (unfold tiny; lra). set (d := tanh 1 + tanh 1 + tiny). assert (Hd : 0 < d < 3) by (unfold d; lra).
      assert (Hq : 2 / 3 < 2 * (1 - 0 * 0) / d). { apply (Rmult_lt_reg_r d); [lra|]. replace (2 * (1 - 0 * 0) / d * d) with 2 by (field; lra). lra. }
      match goal with |- _ < Rabs ?x => replace x with (2 * (1 - 0 * 0) / d) by (unfold d; try reflexivity; field; lra) end. rewrite Rabs_pos_eq; lra. }
  specialize (Hw eq_refl). subst weight. destruct (Hs 0%nat (proj2 (ex_designs 0) eq_refl)) as (slope & Hd & _ & _ & S1 & S2). exists slope. split.
  - eapply derivable_pt_lim_ext; [|exact Hd]. intros t. cbn [s0 lm_start ls_rho ls_filter List.length]. change (unit_dir 2 0) with [1; 0]. cbn [ex_L l_m ex_lm m_aug_mu]. ring.
  - cbn [s0 lm_start ls_rho nth] in S1, S2. split; [intros Q; apply S1; cbn; lra|intros Q; apply S2; cbn; lra].
Qed.
Print Assumptions C95_elastic_instance.
(* the heat problem on which the OC update produces NaN densities (C94) *)
Definition row_L := mkLC ex_lm (1/100) SIMP false false.
Theorem C95_heat_instance obj g A :
  heat_problem row_T (row_hs obj) A (Flt g) (loop_cfg row_L) (row_P obj g A) /\
  exists l, lm_optimize (HeatTask (row_P obj g A)) row_L [(1%Z, row_v); (2%Z, row_v); (3%Z, row_v)] (lm_start row_L [1; 1; 1/100] row_f) = Ok l.
Proof.
  assert (HP : heat_problem row_T (row_hs obj) A (Flt g) (loop_cfg row_L) (row_P obj g A)) by exact (row_problem obj g A). split; [exact HP|].
  assert (HM : made_from (HeatTask (row_P obj g A)) row_T row_L).
  { split; [exact (proj1 HP)|]. split; [now right|]. exact (proj1 row_settings). }
  assert (HDs : forall e, designed row_T (loop_cfg row_L) e <-> e = 2%nat) by exact row_designed.
  apply (C95_fresh_run_succeeds _ row_T row_L row_v 1 _ [1; 1; 1/100] row_f HM); try (cbn; lra).
  - intros i v Q. assert (v = row_v) by (destruct Q as [E|[E|[E|[]]]]; congruence). subst v. split; [cbn; lra|]. split; [reflexivity|]. split; [cbn; lra|].
    exists (row_hs obj), [0%nat], A, (Flt g). split; [exact HP|]. destruct (row_ready obj g) as [R1 R2 R3 R4 R5 R6 R7 R8 R9]. constructor; auto.
  - split; [reflexivity|]. intros e He. rewrite HDs. cbn in He. cbn [loop_cfg row_L l_m ex_lm m_rho_min m_rho_max i_oc c_rho_min c_rho_max].
    destruct e as [|[|[|]]]; [| | |lia]; cbn; split; intros Q; try lra; try lia; try easy.
  - exists 2%nat. now apply HDs.
  - lia.
Qed.
Print Assumptions C95_heat_instance.
