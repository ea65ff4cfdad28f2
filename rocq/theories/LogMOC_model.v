(* Model of core/optimizers/logmoc.py over exact reals. *)
From Verif Require Import Base Material_model OC_model.
Open Scope R_scope.
Open Scope list_scope.

(* logmoc.py:36-66 for one element.  np.log/np.exp are the real functions
   (theorems assume rho_min > 0, so the argument of log is positive). *)
Definition lagrangian_log_update (rho dL eta move rho_min rho_max lclip : R) : R :=
  let scaling := clip dL (- lclip) lclip in                        (* 48-49 *)
  let rho := clip rho rho_min rho_max in                           (* 51 *)
  let lower := ln rho in                                           (* 52 *)
  let upper := exp lower in                                        (* 54 *)
  let upper := move / upper in                                     (* 55 *)
  let upper := upper + 1 in                                        (* 56 *)
  let upper := ln upper in                                         (* 57 *)
  let lower := lower - upper in                                    (* 59 *)
  let upper := lower + 2 * upper in                                (* 60 *)
  let x := ln rho in                                               (* 62 *)
  let x := x - eta * scaling in                                    (* 63 *)
  let x := clip x lower upper in                                   (* 64 *)
  let x := exp x in                                                (* 65 *)
  clip x rho_min rho_max.                                          (* 66 *)

(* LogMOC_Config, logmoc.py:13-33 (fields used by rho_update) *)
Record lm_cfg := mkLM {
  m_rho_min : R; m_rho_max : R; m_beta_eta : R;
  m_mu_p : R; m_aug_mu : R; m_lambda_init : R; m_decay : R;
  m_lambda_lower : R; m_lambda_upper : R;
  m_lclip : R; m_lpercentile : R; m_lfloor : R;
  m_normalize : bool; m_vpercentile : R; m_vfloor : R; m_gain : R; m_gain_under : option R;
  m_augmented : bool;              (* dual_update == "augmented" *)
  m_filter_lagrangian : bool; m_center_lagrangian : bool; m_center_objective : bool }.

(* mutable attributes of the optimizer that rho_update reads and writes;
   running_scale is not assigned by __init__ (logmoc.py:70-88), None = absent *)
Record lm_state := mkLMS { lambda_v : R; running_scale : option R }.

(* logmoc.py:70-88 *)
Definition lm_init (c : lm_cfg) : lm_state := mkLMS (m_lambda_init c) None.

(* logmoc.py:186-200 *)
Definition dual_step (c : lm_cfg) (iter_num : Z) (lam vol_error : R) : R :=
  let penalty := m_mu_p c * vol_error in
  let lam' :=
    if m_augmented c then
      if (1 <? iter_num)%Z then lam + penalty else penalty
    else
      if (1 <? iter_num)%Z then m_decay c * lam + (1 - m_decay c) * penalty else penalty in
  clip lam' (m_lambda_lower c) (m_lambda_upper c).

(* np.allclose(v, 0.0): every |v_i| <= 1e-8 *)
Definition allclose0 (v : list R) : bool :=
  forallb (fun x => Rleb (Rabs x) (1 / 100000000)) v.

(* the arguments rho_update receives, including the filter object *)
Record lm_args := mkLA {
  la_iter : Z; la_design : list nat; la_rho : list R;      (* rho_design_eles *)
  la_rho_filtered : list R; la_rho_projected : list R; la_dC : list R;
  la_forward : list R -> list R; la_gradient : list R -> list R;
  la_move : R; la_eta : R; la_beta : R; la_percentile : option R;
  la_volumes : list R; la_vol_sum : R; la_vol_frac : R }.

(* volume-weighted mean removed: logmoc.py:128-132, 211-215 *)
Definition center (a : lm_args) (v : list R) : list R :=
  let mean := rsum (zipwith Rmult v (la_volumes a)) / la_vol_sum a in
  map (fun x => x - mean) v.

(* logmoc.py:133-158 *)
Definition volume_chain (c : lm_cfg) (a : lm_args) : list R :=
  let zero := map (fun _ => 0) (la_rho_filtered a) in
  let dVp := scatter zero (la_design a) (dV_design (la_volumes a) (la_vol_sum a)) in
  let dH := map (fun x => heaviside_projection_derivative x (la_beta a) (m_beta_eta c))
                (la_rho_filtered a) in
  let dVf := zipwith Rmult dH dVp in
  let back := la_gradient a dVf in
  let back := if allclose0 back && existsb (fun x => Rltb 0 x) dVf
              then la_forward a dVf else back in
  gather back (la_design a).

(* logmoc.py:160-163 *)
Definition lm_vol_error (a : lm_args) : R :=
  rsum (zipwith Rmult (gather (la_rho_projected a) (la_design a)) (la_volumes a)) / la_vol_sum a
  - la_vol_frac a.

(* logmoc.py:165-184 *)
Definition chain_scale (c : lm_cfg) (dC dV : list R) (vol_error : R) : R :=
  if m_normalize c then
    let obj := Rmax (np_percentile (map Rabs dC) (m_lpercentile c)) (m_lfloor c) in
    let vol := Rmax (np_percentile (map Rabs dV) (m_vpercentile c)) (m_vfloor c) in
    let gain := match m_gain_under c with
                | Some g => if Rltb vol_error 0 then g else m_gain c
                | None => m_gain c
                end in
    gain * (obj / vol)
  else 1.

(* logmoc.py:204-215: the Lagrangian gradient before scaling *)
Definition lagrangian_gradient (c : lm_cfg) (a : lm_args) (lam : R) : list R :=
  let dC := if m_center_objective c then center a (la_dC a) else la_dC a in
  let ve := lm_vol_error a in
  let dV := volume_chain c a in
  let dV := map (fun x => x * chain_scale c dC dV ve) dV in
  let coeff := lam + m_aug_mu c * ve in                            (* 201-202 *)
  let dL := zipwith (fun d v => d + coeff * v) dC dV in
  let dL := if m_filter_lagrangian c
            then gather (la_forward a (scatter (map (fun _ => 0) (la_rho_filtered a)) (la_design a) dL))
                        (la_design a)
            else dL in
  if m_center_lagrangian c then center a dL else dL.

(* logmoc.py:217-224 *)
Definition lm_running (c : lm_cfg) (a : lm_args) (running : option R) (dL : list R) : res R :=
  let q := match la_percentile a with Some q => q | None => m_lpercentile c end in
  let scale := Rmax (np_percentile (map Rabs dL) q) (m_lfloor c) in
  if (1 <? la_iter a)%Z then
    match running with
    | Some rs => Ok (2/10 * rs + (1 - 2/10) * scale)
    | None => Err AttributeError
    end
  else Ok scale.

Record lm_out := mkLO { lo_state : lm_state; lo_rho : list R; lo_dL : list R; lo_kkt : R }.

(* logmoc.py:90-258 *)
Definition lm_rho_update (c : lm_cfg) (s : lm_state) (a : lm_args) : res lm_out :=
  let lam := dual_step c (la_iter a) (lambda_v s) (lm_vol_error a) in
  let dL := lagrangian_gradient c a lam in
  let! rs := lm_running c a (running_scale s) dL in
  let dL := map (fun x => x / rs) dL in                            (* 225 *)
  let inside := filter (fun r => interior (m_rho_min c) (m_rho_max c) (fst r))
                  (combine (la_rho a) dL) in
  let kkt := match inside with [] => 0 | _ => norm_inf (map snd inside) end in (* 227-236 *)
  let rho' := zipwith (fun r d => lagrangian_log_update r d (la_eta a) (la_move a)
                         (m_rho_min c) (m_rho_max c) (m_lclip c)) (la_rho a) dL in (* 247-258 *)
  Ok (mkLO (mkLMS lam (Some rs)) rho' dL kkt).

(* a history of updates by one optimizer object *)
Fixpoint lm_run (c : lm_cfg) (s : lm_state) (l : list lm_args) : res lm_state :=
  match l with
  | [] => Ok s
  | a :: l' => let! o := lm_rho_update c s a in lm_run c (lo_state o) l'
  end.

(* the multiplier alone, for a history of (iteration, volume error) *)
Fixpoint dual_run (c : lm_cfg) (lam : R) (l : list (Z * R)) : R :=
  match l with [] => lam | (i, v) :: l' => dual_run c (dual_step c i lam v) l' end.
