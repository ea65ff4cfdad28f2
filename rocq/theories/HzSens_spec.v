(* What the theorems about sensitivity_filter=True with the default filter mean. *)
From Verif Require Import Base Filter_model Helmholtz_model OC_model Iter_model LMIter_model LogMOC_model HzIter_model.
Open Scope R_scope.
Open Scope list_scope.

(* the same configuration with sensitivity_filter=False / True *)
Definition unfiltered (c : icfg) : icfg := mkICfg (i_oc c) (i_Emin_coeff c) (i_interp c) false (i_design_dirichlet c).
Definition sens_filtered (c : icfg) : icfg := mkICfg (i_oc c) (i_Emin_coeff c) (i_interp c) true (i_design_dirichlet c).
(* the same scheduled values with loads multiplied by F *)
Definition loaded (F : R) (v : ivals) : ivals :=
  mkVals F (v_p v) (v_vol_frac v) (v_beta v) (v_move v) (v_eta v) (v_percentile v) (v_radius v).
(* which fraction of the nodes of element e belongs to fixed elements *)
Definition shared (f : hfilter) (e : nat) : R :=
  let nodes := nth e (m_els (hz_mesh f)) [] in
  INR (List.length (filter (fun i => existsb (fun e' => (negb (is_design (hz_mask f) e') && touches (hz_mesh f) e' i)%bool) (seq 0 (n_els (hz_mesh f)))) nodes)) / INR (List.length nodes).
