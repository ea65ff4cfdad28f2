(* C108: LogMOC and rotations by any angle. *)
From Coq Require Import Permutation.
From Verif Require Import Base Sums Material_model OC_model OC_spec OC_proofs LogMOC_model LogMOC_proofs LogMOC_props Filter_model Filter_proofs Filter_props Mesh_model Fea_model Fea_spec
  Iter_model Iter_spec Iter_proofs Iter_props HeatIter_model HeatIter_spec HeatIter_props LMIter_model LMIter_spec LMIter_props Units_props Units2_props Order_spec Order_proofs Order_props
  Order3_spec Order3_props Turn_spec Turn_props.
Open Scope R_scope.
Open Scope list_scope.

(* two LogMOC optimizers with the same densities, filter, multiplier, running scale, density
   change and KKT residual and the same analysis *)
Record same_lstate (n : nat) (a b : lstate) : Prop := mkSL {
  sl_rho : ls_rho b = ls_rho a; sl_filter : ls_filter b = ls_filter a; sl_opt : ls_opt b = ls_opt a;
  sl_change : ls_change b = ls_change a; sl_kkt : ls_kkt b = ls_kkt a;
  sl_eval : match ls_eval a, ls_eval b with
            | Some x, Some y => same_eval n x y | None, None => True | _, _ => False end }.
(* C108.  a whole LogMOC run of the turned task *)
Theorem C108_any_rotation_logmoc : forall Q M T L pb pb' sched a b l, turned Q M pb pb' -> same_lstate (fb_ne (pb_basis pb)) a b ->
  made_from (Elastic pb) T L -> 0 < m_rho_min (l_m L) <= m_rho_max (l_m L) -> m_lambda_lower (l_m L) <= m_lambda_upper (l_m L) ->
  (forall i v, In (i, v) sched -> 0 <= v_move v /\ ready (Elastic pb) T L v (ls_filter a) /\ well_posed pb' (loop_cfg L) v (ls_filter a)) ->
  densities_ok T (loop_cfg L) (ls_rho a) ->
  lm_optimize (Elastic pb) L sched a = Ok l ->
  exists l', lm_optimize (Elastic pb') L sched b = Ok l' /\ Forall2 (same_lstate (fb_ne (pb_basis pb))) l l'.
Proof.
  intros Q M T L pb pb' sched. induction sched as [|[i v] sched IH]; intros a b l Ht Hs HM Hb Hl Hv Hok H; cbn [lm_optimize] in *.
  - injection H as <-. exists []. split; [reflexivity|constructor].
  - destruct (lm_iterate (Elastic pb) L v i a) as [a1|] eqn:E1; [|discriminate]. cbn [bind] in H.
    destruct (lm_optimize (Elastic pb) L sched a1) as [l1|] eqn:E2; [|discriminate]. cbn [bind] in H. injection H as <-.
    destruct (Hv i v (or_introl eq_refl)) as (Hm & HR & WP').
    assert (HI : exists b1, lm_iterate (Elastic pb') L v i b = Ok b1 /\ same_lstate (fb_ne (pb_basis pb)) a1 b1).
    { destruct (dens_range pb T L v _ _ HM HR Hb Hok) as (H0 & H1). pose proof HR as (_ & _ & WP & Hc & _).
      destruct (C108_any_rotation_analysis Q M (loop_cfg L) pb pb' v (ls_filter a) (ls_rho a) Ht WP WP' ltac:(rewrite Hc; apply Hok) H0 H1) as (g & ev & ev' & F1 & F2 & S).
      unfold lm_iterate in *. cbn [analyse element_task] in *. rewrite F1 in E1. rewrite (sl_rho _ _ _ Hs), (sl_filter _ _ _ Hs), F2. cbn [bind] in *. unfold lm_advance in *.
      assert (A : lm_args_of pb' v i (ls_rho b) g ev' = lm_args_of pb v i (ls_rho a) g ev).
      { unfold lm_args_of. now rewrite (sl_rho _ _ _ Hs), (tn_volumes _ _ _ _ Ht), (tn_dom _ _ _ _ Ht), (se_dC _ _ _ S), (se_filtered _ _ _ S), (se_projected _ _ _ S). }
      rewrite A, (sl_opt _ _ _ Hs), (sl_rho _ _ _ Hs). unfold pins in *. rewrite (tn_dom _ _ _ _ Ht).
      destruct (lm_rho_update _ _ _) as [o|]; [|discriminate]. cbn [bind] in *. injection E1 as <-. eexists. split; [reflexivity|]. constructor; cbn; auto. }
    destruct HI as (b1 & Eb & Hs1).
    destruct (C95_iteration_keeps_bounds _ _ _ _ _ _ _ HM Hb Hl Hm Hok E1) as (Hok1 & _).
    destruct (lm_filter_after _ _ _ _ _ _ _ HM HR Hb Hok E1) as (Ef & _).
    destruct (IH a1 b1 l1 Ht Hs1 HM Hb Hl) as (l' & El & Hall); try assumption.
    + intros j w P. destruct (Hv j w (or_intror P)) as (P1 & P2 & P3). split; [exact P1|]. split; [rewrite Ef; eapply ready_same; [| |exact P2]; reflexivity|].
      rewrite Ef. eapply wp_same; [| |exact P3]; reflexivity.
    + rewrite Eb. cbn [bind]. rewrite El. cbn [bind]. exists (b1 :: l'). split; [reflexivity|]. now constructor.
Qed.
Print Assumptions C108_any_rotation_logmoc.

Lemma dg_made : made_from (Elastic dg_pb) sy_T un_L.
Proof. split; [exists sy_dom; split; [vm_compute; reflexivity|reflexivity]|apply sy_made]. Qed.
Lemma dg_wp_lm : well_posed dg_pb (loop_cfg un_L) ex_v sy_filter.
Proof.
  constructor; cbn; try lra.
  - reflexivity. - exists 0%nat. split; [lia|reflexivity]. - intros; lra. - discriminate. - apply dg_solver.
Qed.
Lemma tq_wp_lm : well_posed tq_pb (loop_cfg un_L) ex_v sy_filter.
Proof.
  constructor; cbn; try lra.
  - reflexivity. - exists 0%nat. split; [lia|reflexivity]. - intros; lra. - discriminate. - apply tq_solver.
Qed.
Lemma dg_ready : ready (Elastic dg_pb) sy_T un_L ex_v sy_filter.
Proof. pose proof sy_ready as H. cbn [ready] in *. destruct H as (H1 & H2 & _ & H4). split; [exact H1|]. split; [exact H2|]. split; [exact dg_wp_lm|exact H4]. Qed.
Theorem C108_any_rotation_logmoc_instance : let sched := [(1%Z, ex_v); (2%Z, ex_v); (3%Z, ex_v)] in let s0 := lm_start un_L [1/2; 1/2; 1] sy_filter in
  exists l l', lm_optimize (Elastic dg_pb) un_L sched s0 = Ok l /\ lm_optimize (Elastic tq_pb) un_L sched s0 = Ok l' /\ List.length l' = List.length l /\ map ls_rho l' = map ls_rho l.
Proof.
  intros sched s0. assert (Hb : 0 < m_rho_min (l_m un_L) <= m_rho_max (l_m un_L)) by (cbn; lra).
  assert (HD : densities_ok sy_T (loop_cfg un_L) [1/2; 1/2; 1]).
  { destruct sy_made as (HT & Hp & _). destruct (sets_of sy_T _ _ HT Hp) as (_ & HD & _). cbn [element_task sy_pb pb_dom sy_dom d_design] in HD. split; [reflexivity|]. intros e He. rewrite <- HD. cbn in He.
    destruct e as [|[|[|]]]; [| | |lia]; cbn; (split; [intros P; try lra; exfalso; intuition discriminate|intros P; try reflexivity; exfalso; intuition]). }
  assert (Hv : forall i v, In (i, v) sched -> 0 <= v_move v /\ ready (Elastic dg_pb) sy_T un_L v sy_filter /\ well_posed tq_pb (loop_cfg un_L) v sy_filter).
  { intros i v P. assert (v = ex_v) by (destruct P as [E|[E|[E|[]]]]; congruence). subst v. split; [cbn; lra|]. split; [exact dg_ready|exact tq_wp_lm]. }
  destruct (C95_fresh_run_succeeds (Elastic dg_pb) sy_T un_L ex_v 1 [(2%Z, ex_v); (3%Z, ex_v)] [1/2; 1/2; 1] sy_filter dg_made Hb) as (l & El); try assumption; try (cbn; lra).
  { intros i v P. destruct (Hv i v P) as (A & B & _). auto. }
  { destruct sy_made as (HT & Hp & _). destruct (sets_of sy_T _ _ HT Hp) as (_ & HD' & _). exists 0%nat. apply HD'. now left. } { lia. }
  destruct (C108_any_rotation_logmoc tq tq sy_T un_L dg_pb tq_pb sched s0 s0 l tq_turned) as (l' & El' & S); auto using dg_made; try (cbn; lra); try exact Hv; try exact HD.
  { constructor; try reflexivity. }
  exists l, l'. split; [exact El|]. split; [exact El'|]. clear - S. induction S as [|x y l l' [X _ _ _ _ _] _ (I1 & I2)]; cbn [map List.length]; [auto|]. now rewrite I1, I2, X.
Qed.
Print Assumptions C108_any_rotation_logmoc_instance.
