(* What the theorems about whole LogMOC iterations mean. *)
From Verif Require Import Base Sums Material_model OC_model OC_spec LogMOC_model Filter_model Mesh_model Mesh_spec Mesh_props Fea_model Fea_spec Fea_proofs
  Iter_model Iter_spec Heat_model Heat_spec HeatAdj_model HeatIter_model HeatIter_spec LMIter_model.
Open Scope R_scope.
Open Scope list_scope.

(* a design direction: element e alone *)
Definition unit_dir (n e : nat) : list R := map (fun i => if Nat.eqb i e then 1 else 0) (seq 0 n).
(* the analysis of iteration values v works on task t with filter f: for elastic tasks a
   well-posed problem (RAMP: densities at most 1), for heat tasks any objective *)
Definition ready (t : anytask) (T : task_args) (L : lcfg) (v : ivals) (f : sfilter) : Prop :=
  match t with
  | Elastic pb => built_from T (loop_cfg L) pb /\ pins_known T (loop_cfg L) /\ well_posed pb (loop_cfg L) v f /\
      List.length (sf_centers f) = List.length (ta_t T) /\ (l_interp L = RAMP -> m_rho_max (l_m L) <= 1)
  | HeatTask P => l_design_dirichlet L = false /\ m_rho_max (l_m L) <= 1 /\
      exists s D A values, heat_problem T s A values (loop_cfg L) P /\ heat_ready s D values (loop_cfg L) v f
  end.
(* the element sets of the task *)
Definition made_from (t : anytask) (T : task_args) (L : lcfg) : Prop :=
  built_from T (loop_cfg L) (element_task t) /\ pins_known T (loop_cfg L) /\
  (forall e, In e (ta_design T) -> (e < List.length (ta_t T))%nat).
(* the multiplier the update rule prescribes from the previous one and the volume error *)
Definition next_multiplier (m : lm_cfg) (iter : Z) (lam err : R) : R :=
  let penalty := m_mu_p m * err in
  let new := if (iter <=? 1)%Z then penalty
             else if m_augmented m then lam + penalty
             else m_decay m * lam + (1 - m_decay m) * penalty in
  Rmin (Rmax new (m_lambda_lower m)) (m_lambda_upper m).
