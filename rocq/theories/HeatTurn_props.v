(* C108: heat tasks turned by any angle. *)
From Coq Require Import FunctionalExtensionality.
From Verif Require Import Base Sums Material_model OC_model LogMOC_model Filter_model Mesh_model Fea_model Fea_spec Fea_proofs Stress_props
  Iter_model Heat_model HeatAdj_model HeatIter_model HeatIter_props LMIter_model Turn_spec Turn_props.
Open Scope R_scope.
Open Scope list_scope.

(* ---------- specification ---------- *)
(* the mesh turned by Q: values of the shape functions, quadrature weights and numbers stay,
   every gradient (a vector, in row 0) is multiplied by Q *)
Definition turn_basis (Q : tensor) (B : fembasis) : fembasis :=
  mkBasis (fb_n B) (fb_ne B) (fb_nq B) (fb_dx B) (fun e q k r i => sum 3 (fun j => Q i j * fb_grad B e q k r j)).
Definition turn_mesh (Q : tensor) (H : hbasis) : hbasis := mkHB (turn_basis Q (hb_B H)) (hb_val H) (hb_t H).
(* the heat task on it: same nodes, prescribed temperatures, exchange surfaces, material,
   objective, solver, element sets and volumes *)
Definition turn_task (Q : tensor) (tk : htask) : htask :=
  mkHTask (turn_mesh Q (ht_H tk)) (ht_nodes tk) (ht_values tk) (ht_surfaces tk) (ht_coef tk) (ht_env tk) (ht_design_robin tk)
    (ht_k tk) (ht_bil tk) (ht_lin tk) (ht_obj tk) (ht_weight tk).
Definition turn_fem (Q : tensor) (F : hfem) : hfem :=
  mkHFem (turn_task Q (hf_task F)) (hf_coeff F) (hf_interp F) (hf_q F) (hf_sol F) (hf_slvm F).
Definition turn_heat (Q : tensor) (P : hproblem) : hproblem := mkHP (hp_dom P) (hp_volumes P) (turn_fem Q (hp_F P)).

(* ---------- lemmas ---------- *)
Section Turn.
Variable Q : tensor.
Hypothesis HQ : orthonormal Q.
Lemma vdot3_turn (g h g' h' : tensor) : (forall i, g' 0%nat i = sum 3 (fun j => Q i j * g 0%nat j)) -> (forall i, h' 0%nat i = sum 3 (fun j => Q i j * h 0%nat j)) ->
  vdot3 g' h' = vdot3 g h.
Proof.
  intros Hg Hh. unfold vdot3. rewrite <- (isometry Q (fun j => g 0%nat j) (fun j => h 0%nat j) HQ). apply sum_ext. intros i _. now rewrite Hg, Hh.
Qed.
Lemma gradv_turn H u e q i : gradv (turn_mesh Q H) u e q 0%nat i = sum 3 (fun j => Q i j * gradv H u e q 0%nat j).
Proof.
  unfold gradv, grad_of, turn_mesh, turn_basis. cbn [hb_B fb_n fb_grad].
  transitivity (sum 3 (fun j => sum (fb_n (hb_B H)) (fun k => Q i j * (u k * fb_grad (hb_B H) e q k 0%nat j)))).
  - rewrite sum_swap. apply sum_ext. intros k _. rewrite <- sum_scal. apply sum_ext. intros j _. ring.
  - apply sum_ext. intros j _. apply sum_scal.
Qed.
Lemma gnorm_turn H u e q : gnorm (gradv (turn_mesh Q H) u e q) = gnorm (gradv H u e q).
Proof. unfold gnorm. f_equal. apply vdot3_turn; intros i; apply gradv_turn. Qed.
Lemma conduction_turn B : conduction (turn_basis Q B) = conduction B.
Proof.
  extensionality k. extensionality a. extensionality b. unfold conduction. apply sum_ext. intros e _. apply sum_ext. intros q _. cbn [turn_basis fb_dx]. f_equal. f_equal.
  apply vdot3_turn; intros i; reflexivity.
Qed.
Lemma layer_turn H : layer (turn_mesh Q H) = layer H.
Proof. extensionality r. extensionality p. extensionality q'. extensionality e. extensionality q. unfold layer. now rewrite gnorm_turn. Qed.
Lemma hx_num_turn H : hx_num (turn_mesh Q H) = hx_num H.
Proof.
  extensionality T. extensionality r. extensionality a. extensionality h. unfold hx_num, integral. cbn [turn_mesh turn_basis hb_B fb_ne fb_nq fb_dx].
  apply sum_ext. intros e _. apply sum_ext. intros q _. now rewrite gnorm_turn.
Qed.
Lemma hx_den_turn H : hx_den (turn_mesh Q H) = hx_den H.
Proof.
  extensionality r. unfold hx_den, integral. cbn [turn_mesh turn_basis hb_B fb_ne fb_nq fb_dx]. apply sum_ext. intros e _. apply sum_ext. intros q _. now rewrite gnorm_turn.
Qed.
Lemma objective_turn H : heat_exchange_objective (turn_mesh Q H) = heat_exchange_objective H.
Proof. unfold heat_exchange_objective. now rewrite hx_num_turn, hx_den_turn. Qed.
Lemma heat_energy_turn H : heat_energy (turn_mesh Q H) = heat_energy H.
Proof.
  extensionality k. extensionality T. extensionality e. unfold heat_energy. cbn [turn_mesh turn_basis hb_B fb_nq fb_dx]. apply sum_ext. intros q _. f_equal. f_equal.
  apply vdot3_turn; intros i; apply gradv_turn.
Qed.
Lemma grad_density_turn H : grad_density (turn_mesh Q H) = grad_density H.
Proof.
  extensionality T. extensionality L. extensionality e. unfold grad_density. cbn [turn_mesh turn_basis hb_B fb_nq fb_dx]. apply sum_ext. intros q _. f_equal.
  apply vdot3_turn; intros i; apply gradv_turn.
Qed.
Lemma explicit_turn H : explicit_nodal (turn_mesh Q H) = explicit_nodal H.
Proof.
  extensionality r. extensionality T. extensionality a. extensionality h. extensionality p. extensionality q'. extensionality v.
  unfold explicit_nodal, integral. cbn [turn_mesh turn_basis hb_B fb_ne fb_nq fb_dx]. apply sum_ext. intros e _. apply sum_ext. intros q _. cbv zeta.
  rewrite gnorm_turn. rewrite (vdot3_turn (gradv H r e q) (fb_grad (hb_B H) e q v)); [reflexivity|intros i; apply gradv_turn|reflexivity].
Qed.
Lemma hx_rhs_turn H : hx_rhs (turn_mesh Q H) = hx_rhs H.
Proof.
  extensionality r. extensionality a. extensionality h. extensionality p. extensionality q'. extensionality v. unfold hx_rhs. rewrite hx_den_turn. f_equal.
  unfold integral. cbn [turn_mesh turn_basis hb_B fb_ne fb_nq fb_dx]. apply sum_ext. intros e _. apply sum_ext. intros q _. now rewrite gnorm_turn.
Qed.
Lemma system_turn F p rho : heat_system (turn_fem Q F) p rho = heat_system F p rho.
Proof.
  unfold heat_system. cbn [turn_fem hf_task turn_task ht_H ht_coef ht_env ht_bil ht_lin hf_q hf_interp ht_k]. cbv zeta. rewrite layer_turn.
  change (hb_B (turn_mesh Q (ht_H (hf_task F)))) with (turn_basis Q (hb_B (ht_H (hf_task F)))). rewrite conduction_turn. reflexivity.
Qed.
Lemma objectives_turn F p rho : objectives_multi_load (turn_fem Q F) p rho = objectives_multi_load F p rho.
Proof.
  unfold objectives_multi_load. rewrite system_turn. cbn [turn_fem hf_task turn_task ht_H ht_coef ht_env ht_obj ht_weight ht_values ht_nodes ht_design_robin hf_sol hf_slvm]. cbv zeta.
  rewrite objective_turn, hx_den_turn. change (n_tasks (turn_task Q (hf_task F))) with (n_tasks (hf_task F)). destruct (n_tasks (hf_task F)) as [nc|]; [|reflexivity]. cbn [bind].
  assert (U : match update_robin_bc (turn_task Q (hf_task F)) rho with Ok _ => Ok tt | Err e => Err e end = match update_robin_bc (hf_task F) rho with Ok _ => Ok tt | Err e => Err e end).
  { unfold update_robin_bc. cbn [turn_task ht_surfaces ht_coef ht_env]. destruct (ht_surfaces (hf_task F)); [|reflexivity]. destruct (assemble_surface_robin _ _ _ _) as [[? ?]|]; reflexivity. }
  change (hn (turn_mesh Q (ht_H (hf_task F)))) with (hn (ht_H (hf_task F))).
  destruct (ht_design_robin (hf_task F)) as [[|]|]; try reflexivity.
  destruct (update_robin_bc (turn_task Q (hf_task F)) rho), (update_robin_bc (hf_task F) rho); try discriminate U; [reflexivity|]. injection U as ->. reflexivity.
Qed.
Lemma adjoint_turn F p sys Ts nc : adjoint_fields (turn_fem Q F) p sys Ts nc = adjoint_fields F p sys Ts nc.
Proof.
  unfold adjoint_fields. cbn [turn_fem hf_task turn_task ht_H ht_coef ht_env ht_obj ht_weight ht_values ht_nodes hf_sol hf_slvm hf_q]. cbv zeta.
  rewrite objective_turn, hx_den_turn, hx_rhs_turn. reflexivity.
Qed.
Lemma call_turn F p rho : objective_call (turn_fem Q F) p rho = objective_call F p rho.
Proof.
  unfold objective_call. rewrite objectives_turn, system_turn. change (n_tasks (hf_task (turn_fem Q F))) with (n_tasks (hf_task F)).
  destruct (objectives_multi_load F p rho) as [[Js Ts]|]; [|reflexivity]. cbn [bind]. destruct (heat_system F p rho) as [sys|]; [|reflexivity]. cbn [bind].
  destruct (n_tasks (hf_task F)) as [nc|]; [|reflexivity]. cbn [bind]. now rewrite adjoint_turn.
Qed.
Lemma energies_turn F lam p rho Ts : energy_multi_load (turn_fem Q F) lam p rho Ts = energy_multi_load F lam p rho Ts.
Proof.
  unfold energy_multi_load. cbn [turn_fem hf_task turn_task ht_H ht_obj ht_k hf_interp]. cbv zeta. rewrite heat_energy_turn, grad_density_turn. reflexivity.
Qed.
Lemma sensitivity_turn F p rho Ts : heat_sensitivity (turn_fem Q F) p rho Ts = heat_sensitivity F p rho Ts.
Proof.
  unfold heat_sensitivity. cbn [turn_fem hf_task turn_task ht_H ht_obj ht_k hf_interp ht_coef ht_env hf_q]. cbv zeta. rewrite heat_energy_turn, explicit_turn. reflexivity.
Qed.
End Turn.

(* C108.  the analysis of the turned heat task is the analysis of the task, for every input,
   also where it raises an exception *)
Theorem C108_heat_any_rotation_analysis : forall Q P c v f rho, orthonormal Q -> heat_evaluate (turn_heat Q P) c v f rho = heat_evaluate P c v f rho.
Proof.
  intros Q P c v f rho HQ. unfold heat_evaluate. cbn [turn_heat hp_F]. cbv zeta. change (n_tasks (hf_task (turn_fem Q (hp_F P)))) with (n_tasks (hf_task (hp_F P))).
  destruct (sf_forward _ rho) as [[g rf]|]; [|reflexivity]. cbn [bind]. destruct (n_tasks (hf_task (hp_F P))) as [nt|]; [|reflexivity]. cbn [bind]. destruct (Nat.eqb nt 0); [reflexivity|].
  rewrite (call_turn Q HQ). destruct (objective_call _ _ _) as [[[Js Ts] Ls]|]; [|reflexivity]. cbn [bind]. rewrite (energies_turn Q HQ). destruct (energy_multi_load _ _ _ _ _) as [E|]; [|reflexivity]. cbn [bind].
  rewrite (sensitivity_turn Q HQ). reflexivity.
Qed.
Print Assumptions C108_heat_any_rotation_analysis.
(* C108.  so are whole runs, with OC and with LogMOC *)
Theorem C108_heat_any_rotation : forall Q P, orthonormal Q ->
  (forall c sched s, heat_run (turn_heat Q P) c sched s = heat_run P c sched s) /\
  (forall L sched s, lm_optimize (HeatTask (turn_heat Q P)) L sched s = lm_optimize (HeatTask P) L sched s).
Proof.
  intros Q P HQ. split.
  - intros c sched. induction sched as [|[i v] sched IH]; intros s; cbn [heat_run]; [reflexivity|]. unfold heat_iterate at 1 2. rewrite (C108_heat_any_rotation_analysis Q P c v _ _ HQ).
    destruct (heat_evaluate P c v (s_filter s) (s_rho s)) as [[f ev]|]; [|reflexivity]. cbn [bind]. change (plain (turn_heat Q P)) with (plain P).
    destruct (advance (plain P) c v i s f ev) as [s'|]; [|reflexivity]. cbn [bind]. now rewrite IH.
  - intros L sched. induction sched as [|[i v] sched IH]; intros s; cbn [lm_optimize]; [reflexivity|]. unfold lm_iterate at 1 2. cbn [analyse]. rewrite (C108_heat_any_rotation_analysis Q P (loop_cfg L) v _ _ HQ).
    destruct (heat_evaluate P (loop_cfg L) v (ls_filter s) (ls_rho s)) as [[f ev]|]; [|reflexivity]. cbn [bind]. change (element_task (HeatTask (turn_heat Q P))) with (element_task (HeatTask P)).
    destruct (lm_advance _ L v i s f ev) as [s'|]; [|reflexivity]. cbn [bind]. now rewrite IH.
Qed.
Print Assumptions C108_heat_any_rotation.

(* the bar of C94_instance, lying at an angle to the axes *)
Theorem C108_heat_any_rotation_instance : orthonormal tq /\
  let P := row_P AveragedTemp 600 300 in let P' := turn_heat tq P in
  (forall k, (k < 2)%nat -> fb_grad (hb_B (ht_H (hf_task (hp_F P')))) 0 0 k 0%nat 1%nat <> fb_grad (hb_B (ht_H (hf_task (hp_F P)))) 0 0 k 0%nat 1%nat) /\
  exists l, heat_run P' row_c [(1%Z, row_v); (2%Z, row_v); (3%Z, row_v)] (row_s (1/2)) = Ok l /\ List.length l = 3%nat.
Proof.
  assert (HQ : orthonormal tq) by exact (tn_Q _ _ _ _ tq_turned). split; [exact HQ|]. cbv zeta. split.
  - intros k Hk. destruct k as [|[|]]; [| |lia]; unfold sum; cbn; unfold sum; cbn; lra.
  - destruct (C94_instance AveragedTemp ltac:(discriminate)) as (_ & _ & l & El & Ll & _). exists l. split; [|exact Ll].
    rewrite (proj1 (C108_heat_any_rotation tq (row_P AveragedTemp 600 300) HQ)). exact El.
Qed.
Print Assumptions C108_heat_any_rotation_instance.
