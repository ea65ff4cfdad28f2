(* Property theorems for core/optimizers/oc.py. *)
From Verif Require Import Base Material_model Material_proofs OC_model OC_spec OC_proofs.
Open Scope R_scope.
Open Scope list_scope.

(* C17 *)
Theorem C17_update_respects_bounds_and_move_limit : forall cfg running a,
  0 < c_floor cfg -> 0 <= running -> 0 < c_lambda_lower cfg <= c_lambda_upper cfg ->
  c_smin cfg <= c_smax cfg -> 0 <= a_move a ->
  List.length (a_dC a) = List.length (a_design a) ->
  Forall (fun d => d <= 0) (a_dC a) ->
  Forall (fun r => c_rho_min cfg <= r <= c_rho_max cfg) (gather (a_rho_full a) (a_design a)) ->
  exists r new, rho_update cfg running a = Some r /\ r_rho r = Some new /\
    Forall2 (oc_step_ok (c_rho_min cfg) (c_rho_max cfg) (a_move a) (c_smin cfg) (c_smax cfg))
            (gather (a_rho_full a) (a_design a)) new /\
    c_lambda_lower cfg <= r_lmid r <= c_lambda_upper cfg /\
    0 < r_running r /\ (exists v, r_vol_error r = Some v) /\ (exists k, r_kkt r = Some k).
Proof. exact rho_update_ok. Qed.
Print Assumptions C17_update_respects_bounds_and_move_limit.

Theorem C17_any_multiplier_respects_bounds : forall P l,
  List.length (oc_dC P) = List.length (oc_rho_e P) ->
  Forall (fun d => d <= 0) (oc_dC P) ->
  Forall (fun r => oc_rho_min P <= r <= oc_rho_max P) (oc_rho_e P) ->
  0 <= oc_move P -> oc_smin P <= oc_smax P -> 0 < l + oc_eps P ->
  exists c, candidate P l = Some c /\
    Forall2 (oc_step_ok (oc_rho_min P) (oc_rho_max P) (oc_move P) (oc_smin P) (oc_smax P))
            (oc_rho_e P) c.
Proof. exact candidate_ok. Qed.
Print Assumptions C17_any_multiplier_respects_bounds.

(* one positive sensitivity and a fractional exponent: NaN densities *)
Theorem C17_positive_sensitivity_gives_nan : forall P l i d r,
  nth_error (oc_dC P) i = Some d -> nth_error (oc_rho_e P) i = Some r ->
  0 < d -> 0 < l + oc_eps P -> (forall z, oc_eta P <> IZR z) ->
  candidate P l = None.
Proof. exact candidate_nan. Qed.
Print Assumptions C17_positive_sensitivity_gives_nan.

(* a two-element problem; the filter is the identity *)
Definition ex_cfg := mkOCCfg (1/100) 1 (1/2) (7/10) (13/10) (1/1000000000000) (1/10000000) 10000000.
Definition ex_args := mkArgs 1 [1/2; 1/2] [0;1]%nat (fun x => x) [-1; -2] (1/10) (1/2) 2 None
                       [1; 1] 2 (4/10).
Example C17_instance : exists r new,
  rho_update ex_cfg 0 ex_args = Some r /\ r_rho r = Some new /\
  Forall2 (oc_step_ok (1/100) 1 (1/10) (7/10) (13/10)) [1/2; 1/2] new.
Proof.
  destruct (C17_update_respects_bounds_and_move_limit ex_cfg 0 ex_args) as (r & new & H1 & H2 & H3 & _);
    cbn; try lra; auto.
  - repeat constructor; lra.
  - repeat constructor; lra.
  - exists r, new; auto.
Qed.

(* C18 *)
Theorem C18_bisection_terminates_consistently : forall P max_iter tol vol_tol l1 l2, l1 <= l2 ->
  exists o, bisection_with_physical_volume P max_iter tol vol_tol l1 l2 = Some o /\
    (1 <= b_evals o <= S max_iter)%nat /\ l1 <= b_lmid o <= l2 /\
    b_rho o = candidate P (b_lmid o) /\
    b_vol_error o = match b_rho o with Some rho => Some (volume_error P rho) | None => None end.
Proof. exact bisection_consistent. Qed.
Print Assumptions C18_bisection_terminates_consistently.

(* more fuel changes nothing: the fuel is not what stops the loop *)
Theorem C18_loop_never_exhausts_fuel : forall P max_iter tol vol_tol l1 l2 fuel,
  l1 <= l2 -> (max_iter < fuel)%nat ->
  exists o, bisect P max_iter tol vol_tol fuel l1 l2 (1/2 * (l1 + l2)) 0 = Some o /\
            (1 <= b_evals o <= S max_iter)%nat.
Proof.
  intros P max_iter tol vol_tol l1 l2 fuel Hl Hf.
  destruct (bisect_exit P max_iter tol vol_tol fuel l1 l2 0 Hl (Nat.le_0_l _)
              ltac:(rewrite Nat.add_0_r; exact Hf)) as (o & E & _ & _ & _ & X & _).
  exists o; split; [exact E|]. lia.
Qed.
Print Assumptions C18_loop_never_exhausts_fuel.

Example C18_instance : (1/10000000 : R) <= 10000000.
Proof. lra. Qed.

(* C19 *)
Theorem C19_tolerance_met_or_multiplier_pinned : forall P max_iter tol vol_tol l1 l2 o,
  l1 <= l2 -> l2 - l1 <= tol * 2 ^ max_iter ->
  bisection_with_physical_volume P max_iter tol vol_tol l1 l2 = Some o ->
  (exists v, b_vol_error o = Some v /\ Rabs v < vol_tol) \/
  (exists a b, l1 <= a <= b_lmid o /\ b_lmid o <= b <= l2 /\ b - a <= tol /\
     (a = l1 \/ exists v, vol_of P a = Some v /\ 0 < v /\ vol_tol <= v) /\
     (b = l2 \/ match vol_of P b with Some v => v <= 0 /\ v <= - vol_tol | None => True end)).
Proof. exact bisection_exit. Qed.
Print Assumptions C19_tolerance_met_or_multiplier_pinned.

(* the optimizer's own settings satisfy the width hypothesis *)
Theorem C19_default_settings_suffice : 10000000 - 1/10000000 <= 1/100000 * 2 ^ 1000.
Proof.
  apply Rle_trans with (1/100000 * 2 ^ 40).
  - simpl. lra.
  - apply Rmult_le_compat_l; [lra|]. apply Rle_pow; [lra|lia].
Qed.
Print Assumptions C19_default_settings_suffice.

(* with a monotone filter, an exact multiplier in the bracket is found *)
Theorem C19_finds_the_multiplier : forall P max_iter tol vol_tol l1 l2 lstar o,
  List.length (oc_dC P) = List.length (oc_rho_e P) ->
  Forall (fun d => d <= 0) (oc_dC P) -> Forall (fun r => 0 <= r) (oc_rho_e P) ->
  0 <= oc_eta P -> 0 < l1 + oc_eps P ->
  monotone_filter (oc_filter P) -> 0 < oc_beta P -> 0 <= oc_beta_eta P <= 1 ->
  Forall (fun v => 0 <= v) (oc_volumes P) -> 0 < oc_vol_sum P -> 0 < vol_tol ->
  l1 <= lstar <= l2 -> vol_of P lstar = Some 0 ->
  l2 - l1 <= tol * 2 ^ max_iter ->
  bisection_with_physical_volume P max_iter tol vol_tol l1 l2 = Some o ->
  (exists v, b_vol_error o = Some v /\ Rabs v < vol_tol) \/ Rabs (b_lmid o - lstar) <= tol.
Proof. exact bisection_finds. Qed.
Print Assumptions C19_finds_the_multiplier.

(* one element, no move possible, already at the target volume *)
Example C19_instance :
  let P := mkOC [-1] [1/2] [1/2] [0%nat] (fun x => x) 0 1 0 (1/2) tiny
                (heaviside_projection (1/2) 2 (1/2)) 2 (1/2) [1] 1 (7/10) (13/10) in
  vol_of P 1 = Some 0 /\ monotone_filter (oc_filter P).
Proof.
  split; [|intros u v H; exact H].
  unfold vol_of.
  destruct (oc_candidate_ok 0 1 0 (1/2) tiny (7/10) (13/10) 1 (-1) (1/2)) as (x & E & S1 & S2 & _);
    try (unfold tiny; lra).
  unfold candidate; simpl. rewrite E.
  assert (x = 1/2). { revert S2. unfold Rabs. destruct (Rcase_abs (x - 1/2)); lra. }
  subst x. f_equal. unfold volume_error; simpl. field.
Qed.

(* C20 *)
Theorem C20_candidate_monotone : forall rho_min rho_max move eta eps smin smax l1 l2 d1 d2 r,
  d1 <= 0 -> d2 <= d1 -> 0 < l2 + eps -> l2 <= l1 -> 0 <= r -> 0 <= eta ->
  exists x1 x2,
    oc_candidate rho_min rho_max move eta eps smin smax l1 d1 r = Some x1 /\
    oc_candidate rho_min rho_max move eta eps smin smax l2 d2 r = Some x2 /\ x1 <= x2.
Proof. exact oc_candidate_mono. Qed.
Print Assumptions C20_candidate_monotone.

Theorem C20_volume_nonincreasing_in_multiplier : forall P l1 l2,
  List.length (oc_dC P) = List.length (oc_rho_e P) ->
  Forall (fun d => d <= 0) (oc_dC P) -> Forall (fun r => 0 <= r) (oc_rho_e P) ->
  0 <= oc_eta P -> 0 < l1 + oc_eps P -> l1 <= l2 ->
  monotone_filter (oc_filter P) -> 0 < oc_beta P -> 0 <= oc_beta_eta P <= 1 ->
  Forall (fun v => 0 <= v) (oc_volumes P) -> 0 < oc_vol_sum P ->
  exists v1 v2, vol_of P l1 = Some v1 /\ vol_of P l2 = Some v2 /\ v2 <= v1.
Proof. exact vol_of_mono. Qed.
Print Assumptions C20_volume_nonincreasing_in_multiplier.

Example C20_instance : exists x1 x2,
  oc_candidate (1/100) 1 (1/10) (1/2) tiny (7/10) (13/10) 4 (-1) (1/2) = Some x1 /\
  oc_candidate (1/100) 1 (1/10) (1/2) tiny (7/10) (13/10) 2 (-3) (1/2) = Some x2 /\ x1 <= x2.
Proof. apply C20_candidate_monotone; unfold tiny; lra. Qed.

(* C21 *)
Theorem C21_one_update_scale_invariant : forall cfg running a c, 0 < c ->
  c_floor cfg <= raw_scale (a_percentile a) (a_dC a) ->
  c_floor cfg <= c * raw_scale (a_percentile a) (a_dC a) ->
  0 < c_floor cfg -> 0 <= running ->
  match rho_update cfg running a, rho_update cfg (c * running) (scaled_args c a) with
  | Some r, Some r' => r_rho r' = r_rho r /\ r_lmid r' = r_lmid r /\ r_vol_error r' = r_vol_error r /\
                       r_dC_scaled r' = r_dC_scaled r /\ r_running r' = c * r_running r /\
                       r_kkt r' = match r_kkt r with Some k => Some (c * k) | None => None end /\ 0 < r_running r
  | None, None => True
  | _, _ => False
  end.
Proof. exact rho_update_hom. Qed.
Print Assumptions C21_one_update_scale_invariant.

Theorem C21_run_scale_invariant : forall cfg sens rest c n rho, 0 < c -> 0 < c_floor cfg ->
  (forall i r dC, a_dC (rest i r dC) = dC) ->
  (forall i r dC, rest i r (map (Rmult c) dC) = scaled_args c (rest i r dC)) ->
  (forall i r s, (i < n)%nat -> oc_run cfg sens rest i rho 0 = Some (r, s) ->
     c_floor cfg <= raw_scale (a_percentile (rest i r (sens i r))) (sens i r) /\
     c_floor cfg <= c * raw_scale (a_percentile (rest i r (sens i r))) (sens i r)) ->
  match oc_run cfg sens rest n rho 0, oc_run cfg (fun i r => map (Rmult c) (sens i r)) rest n rho 0 with
  | Some (r, s), Some (r', s') => r' = r /\ s' = c * s /\ 0 <= s
  | None, None => True
  | _, _ => False
  end.
Proof. exact oc_run_hom. Qed.
Print Assumptions C21_run_scale_invariant.

Definition ex_rest (i : nat) (r dC : list R) : oc_args :=
  mkArgs (1 + Z.of_nat i) r [0;1]%nat (fun x => x) dC (1/10) (1/2) 2 None [1;1] 2 (4/10).
Example C21_instance : forall n,
  match oc_run ex_cfg (fun _ _ => [-1; -2]) ex_rest n [1/2; 1/2] 0,
        oc_run ex_cfg (fun i r => map (Rmult 1000) [-1; -2]) ex_rest n [1/2; 1/2] 0 with
  | Some (r, s), Some (r', s') => r' = r /\ s' = 1000 * s /\ 0 <= s
  | None, None => True
  | _, _ => False
  end.
Proof.
  intros n. apply (C21_run_scale_invariant ex_cfg (fun _ _ => [-1; -2]) ex_rest 1000 n); cbn; try lra; auto.
  intros i r s _ _. replace (Rabs (-1)) with 1 by (rewrite Rabs_left; lra).
  replace (Rabs (-2)) with 2 by (rewrite Rabs_left; lra).
  rewrite Rmax_right by lra. lra.
Qed.

(* C22 *)
Theorem C22_residual_bounds_every_interior_element :
  forall rho_min rho_max s rho dC dV i r d v,
  kkt_row rho dC dV i r d v -> rho_min + 1/1000000 < r < rho_max - 1/1000000 ->
  Rabs (d + s * v) <= kkt_residual rho_min rho_max s rho dC dV.
Proof. exact kkt_upper. Qed.
Print Assumptions C22_residual_bounds_every_interior_element.

Theorem C22_residual_attained_or_zero : forall rho_min rho_max s rho dC dV,
  (exists i r d v, kkt_row rho dC dV i r d v /\ rho_min + 1/1000000 < r < rho_max - 1/1000000 /\
     kkt_residual rho_min rho_max s rho dC dV = Rabs (d + s * v)) \/
  ((forall i r d v, kkt_row rho dC dV i r d v -> ~ rho_min + 1/1000000 < r < rho_max - 1/1000000) /\
   kkt_residual rho_min rho_max s rho dC dV = 0).
Proof. exact kkt_attained. Qed.
Print Assumptions C22_residual_attained_or_zero.

Theorem C22_residual_below_tolerance_iff : forall rho_min rho_max s rho dC dV tol, 0 < tol ->
  (kkt_residual rho_min rho_max s rho dC dV < tol <->
   forall i r d v, kkt_row rho dC dV i r d v -> rho_min + 1/1000000 < r < rho_max - 1/1000000 ->
                   Rabs (d + s * v) < tol).
Proof. exact kkt_below. Qed.
Print Assumptions C22_residual_below_tolerance_iff.

(* what the update reports is this residual, for the multiplier and scale it used *)
Theorem C22_update_reports_the_residual : forall cfg running a r new,
  rho_update cfg running a = Some r -> r_rho r = Some new ->
  r_kkt r = Some (kkt_residual (c_rho_min cfg) (c_rho_max cfg) (r_lmid r * r_running r) new
                    (a_dC a) (map (fun v => v / a_vol_sum a) (a_volumes a))).
Proof.
  intros cfg running a r new. unfold rho_update.
  destruct (bisection_with_physical_volume _ _ _ _ _ _) as [b|]; [|discriminate].
  intros [= <-]. cbn [r_rho r_kkt r_lmid r_running]. intros ->. reflexivity.
Qed.
Print Assumptions C22_update_reports_the_residual.

(* The residual is not a measure of stationarity of the OC update itself: an
   element the update leaves alone (scaling factor 1) contributes
   running * |lmid * (1 - v/V) + 1e-12|, which is large unless the element is
   the whole design volume. *)
Theorem C22_stationary_element_has_large_residual : forall running lmid dC v V,
  0 < running -> 0 < lmid -> - (dC / running) / (lmid + 1/1000000000000) = 1 ->
  Rabs (dC + lmid * running * (v / V)) =
  running * Rabs (lmid * (1 - v / V) + 1/1000000000000).
Proof. exact oc_rest_residual. Qed.
Print Assumptions C22_stationary_element_has_large_residual.

Example C22_instance :
  kkt_row [1/2; 1] [-1; -2] [1/2; 1/2] 0 (1/2) (-1) (1/2) /\
  0 + 1/1000000 < 1/2 < 1 - 1/1000000.
Proof. split; [repeat split|lra]. Qed.
