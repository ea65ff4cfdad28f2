(* What the theorems about load units mean. *)
From Verif Require Import Base Filter_model OC_model Iter_model LogMOC_model LMIter_model HzSens_spec.
Open Scope R_scope.
Open Scope list_scope.

(* the same scheduled values, loads times F *)
Definition heavier (F : R) (v : ivals) : ivals := loaded (F * v_scale v) v.
(* the same configuration with lagrangian_scale_floor times k *)
Definition with_floor (k : R) (L : lcfg) : lcfg :=
  let m := l_m L in
  mkLC (mkLM (m_rho_min m) (m_rho_max m) (m_beta_eta m) (m_mu_p m) (m_aug_mu m) (m_lambda_init m) (m_decay m) (m_lambda_lower m) (m_lambda_upper m)
          (m_lclip m) (m_lpercentile m) (k * m_lfloor m) (m_normalize m) (m_vpercentile m) (m_vfloor m) (m_gain m) (m_gain_under m) (m_augmented m)
          (m_filter_lagrangian m) (m_center_lagrangian m) (m_center_objective m))
       (l_Emin_coeff L) (l_interp L) (l_sens_filter L) (l_design_dirichlet L).
(* two states of an optimizer that show the same design: densities, filter, multiplier,
   density change, KKT residual and analysed densities; the compliance is k times as large,
   and so is the running scale *)
Definition same_design (k : R) (a b : lstate) : Prop :=
  ls_rho b = ls_rho a /\ ls_filter b = ls_filter a /\ ls_change b = ls_change a /\ ls_kkt b = ls_kkt a /\
  lambda_v (ls_opt b) = lambda_v (ls_opt a) /\ running_scale (ls_opt b) = option_map (Rmult k) (running_scale (ls_opt a)) /\
  match ls_eval a, ls_eval b with
  | Some x, Some y => ev_filtered y = ev_filtered x /\ ev_projected y = ev_projected x /\ ev_compliance y = k * ev_compliance x /\
      forall e, nth e (ev_dC y) 0 = k * nth e (ev_dC x) 0
  | None, None => True
  | _, _ => False
  end.
