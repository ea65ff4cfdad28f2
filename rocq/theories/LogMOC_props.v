(* Property theorems for core/optimizers/logmoc.py, and for restarting. *)
From Verif Require Import Base Material_model OC_model OC_spec OC_proofs LogMOC_model LogMOC_proofs.
Open Scope R_scope.
Open Scope list_scope.

(* C23 *)
Theorem C23_element_update_bounds_and_move_limit : forall rho dL eta move rho_min rho_max lclip,
  0 < rho_min <= rho_max -> 0 <= move ->
  let x := lagrangian_log_update rho dL eta move rho_min rho_max lclip in
  rho_min <= x <= rho_max /\ Rabs (x - clip rho rho_min rho_max) <= move.
Proof. exact log_update_bounds. Qed.
Print Assumptions C23_element_update_bounds_and_move_limit.

Theorem C23_element_update_direction : forall rho dL eta move rho_min rho_max lclip,
  0 < rho_min <= rho_max -> 0 <= move -> 0 <= eta -> 0 <= lclip ->
  let r := clip rho rho_min rho_max in
  let x := lagrangian_log_update rho dL eta move rho_min rho_max lclip in
  (0 <= dL -> x <= r) /\ (dL <= 0 -> r <= x) /\ (dL = 0 -> x = r) /\
  (0 < dL -> 0 < eta -> 0 < lclip -> 0 < move -> rho_min < r -> x < r) /\
  (dL < 0 -> 0 < eta -> 0 < lclip -> 0 < move -> r < rho_max -> r < x).
Proof. exact log_update_direction. Qed.
Print Assumptions C23_element_update_direction.

(* the closed form: a multiplicative step exp(-eta*clipped gradient), limited
   below by r^2/(r+move) and above by r+move *)
Theorem C23_update_closed_form : forall rho dL eta move rho_min rho_max lclip,
  0 < rho_min <= rho_max -> 0 <= move ->
  let r := clip rho rho_min rho_max in
  lagrangian_log_update rho dL eta move rho_min rho_max lclip =
  clip (clip (r * exp (- (eta * clip dL (- lclip) lclip))) (r * (r / (r + move))) (r + move))
       rho_min rho_max.
Proof. exact log_update_closed. Qed.
Print Assumptions C23_update_closed_form.

Theorem C23_whole_update_bounds_and_move_limit : forall c s a o,
  0 < m_rho_min c <= m_rho_max c -> 0 <= la_move a ->
  List.length (la_dC a) = List.length (la_design a) ->
  List.length (la_rho a) = List.length (la_design a) ->
  lm_rho_update c s a = Ok o ->
  Forall2 (fun r x => m_rho_min c <= x <= m_rho_max c /\
                      Rabs (x - clip r (m_rho_min c) (m_rho_max c)) <= la_move a)
          (la_rho a) (lo_rho o).
Proof. exact lm_update_bounds. Qed.
Print Assumptions C23_whole_update_bounds_and_move_limit.

Theorem C23_whole_update_descends : forall c s a o,
  0 < m_rho_min c <= m_rho_max c -> 0 <= la_move a -> 0 <= la_eta a -> 0 <= m_lclip c ->
  List.length (la_dC a) = List.length (la_design a) ->
  List.length (la_rho a) = List.length (la_design a) ->
  lm_rho_update c s a = Ok o ->
  forall i r, nth_error (la_rho a) i = Some r ->
  exists d x, nth_error (lo_dL o) i = Some d /\ nth_error (lo_rho o) i = Some x /\
    let r' := clip r (m_rho_min c) (m_rho_max c) in
    (0 <= d -> x <= r') /\ (d <= 0 -> r' <= x) /\ (d = 0 -> x = r').
Proof. exact lm_update_descends. Qed.
Print Assumptions C23_whole_update_descends.

Example C23_instance : forall dL, dL < 0 ->
  1/2 < lagrangian_log_update (1/2) dL (1/10) (1/10) (1/100) 1 1 <= 6/10.
Proof.
  intros dL H.
  destruct (C23_element_update_direction (1/2) dL (1/10) (1/10) (1/100) 1 1) as (_ & _ & _ & _ & D); try lra.
  destruct (C23_element_update_bounds_and_move_limit (1/2) dL (1/10) (1/10) (1/100) 1 1) as (_ & M); try lra.
  rewrite (clip_id (1/2)) in * by lra. specialize (D H ltac:(lra) ltac:(lra) ltac:(lra) ltac:(lra)).
  split; auto. revert M. unfold Rabs. destruct (Rcase_abs _); lra.
Qed.

(* C24 *)
Theorem C24_multiplier_always_in_bounds : forall c s l s',
  m_lambda_lower c <= m_lambda_upper c -> l <> [] -> lm_run c s l = Ok s' ->
  m_lambda_lower c <= lambda_v s' <= m_lambda_upper c.
Proof.
  intros c s l s' Hb Hl E. rewrite (lm_run_dual c l s s' E).
  exact (dual_run_bounds c (lambda_v s) _ Hb (fun C => Hl (map_eq_nil _ _ C))).
Qed.
Print Assumptions C24_multiplier_always_in_bounds.

Theorem C24_ema_bounded_by_largest_penalty : forall c s l s' B,
  m_augmented c = false -> 0 <= m_decay c <= 1 -> 0 <= B ->
  m_lambda_lower c <= 0 <= m_lambda_upper c ->
  Forall (fun a => Rabs (m_mu_p c * lm_vol_error a) <= B) l ->
  Rabs (lambda_v s) <= B -> lm_run c s l = Ok s' -> Rabs (lambda_v s') <= B.
Proof.
  intros c s l s' B Ha Hd HB Hl F Hs E. rewrite (lm_run_dual c l s s' E).
  apply dual_ema_convex; auto. apply Forall_map. exact F.
Qed.
Print Assumptions C24_ema_bounded_by_largest_penalty.

Theorem C24_augmented_follows_volume_error : forall c i lam v,
  m_augmented c = true -> 0 < m_mu_p c -> (1 < i)%Z ->
  m_lambda_lower c <= lam <= m_lambda_upper c ->
  (0 < v -> (lam < dual_step c i lam v \/ dual_step c i lam v = m_lambda_upper c) /\ lam <= dual_step c i lam v) /\
  (v < 0 -> (dual_step c i lam v < lam \/ dual_step c i lam v = m_lambda_lower c) /\ dual_step c i lam v <= lam) /\
  (v = 0 -> dual_step c i lam v = lam).
Proof. exact dual_augmented_dir. Qed.
Print Assumptions C24_augmented_follows_volume_error.

(* the multiplier rho_update ends with is exactly that step applied to the volume error *)
Theorem C24_update_applies_dual_step : forall c s a o, lm_rho_update c s a = Ok o ->
  lambda_v (lo_state o) = dual_step c (la_iter a) (lambda_v s) (lm_vol_error a).
Proof.
  intros c s a o. unfold lm_rho_update. destruct (lm_running _ _ _ _); [|discriminate].
  intros [= <-]. reflexivity.
Qed.
Print Assumptions C24_update_applies_dual_step.

Definition ex_lm := mkLM (1/100) 1 (1/2) 5 0 (1/10) (9/10) (-1) 1 1 95 (1/100000000)
                         false 95 (1/100000000) 1 None true false false false.
Definition ex_la (i : Z) := mkLA i [0%nat] [1/2] [1/2] [1/2] [-1] (fun x => x) (fun x => x) (1/10) (1/2) 2
                         None [1] 1 (4/10).
Example C24_instance : exists s', lm_run ex_lm (lm_init ex_lm) [ex_la 1; ex_la 2; ex_la 3] = Ok s' /\
  -1 <= lambda_v s' <= 1.
Proof.
  destruct (lm_fresh_run_ok ex_lm [ex_la 1; ex_la 2; ex_la 3] (lm_init ex_lm)) as (s' & E).
  { left. do 2 eexists; split; [reflexivity|]. simpl; lia. }
  exists s'; split; auto.
  refine (C24_multiplier_always_in_bounds ex_lm _ _ _ _ _ E); [simpl; lra|discriminate].
Qed.

(* C25 *)
Theorem C25_fresh_logmoc_run_never_fails : forall c a l, (la_iter a <= 1)%Z ->
  exists s', lm_run c (lm_init c) (a :: l) = Ok s'.
Proof. intros c a l H. apply lm_fresh_run_ok. left. exists a, l. auto. Qed.
Print Assumptions C25_fresh_logmoc_run_never_fails.

(* restarting at any iteration after the first raises AttributeError *)
Theorem C25_logmoc_restart_refuted : forall c a l, (1 < la_iter a)%Z ->
  lm_run c (lm_init c) (a :: l) = Err AttributeError.
Proof. intros. apply lm_restart_fails; auto. Qed.
Print Assumptions C25_logmoc_restart_refuted.

(* an OC optimizer that lost its running scale (0 after construction,
   oc.py:122) computes different densities than the uninterrupted one *)
Theorem C25_oc_restart_same_densities_refuted : exists cfg a running r1 r2 x y,
  0 < running /\ (1 < a_iter a)%Z /\
  rho_update cfg running a = Some r1 /\ rho_update cfg 0 a = Some r2 /\
  r_rho r1 = Some [x] /\ r_rho r2 = Some [y] /\ x < y.
Proof.
  destruct oc_restart_differs as (x & y & r1 & r2 & H1 & H2 & H3 & H4 & H5 & H6).
  exists rs_cfg, rs_args, 1, r1, r2, x, y. repeat split; auto; try lra.
Qed.
Print Assumptions C25_oc_restart_same_densities_refuted.

Example C25_instance : exists s', lm_run ex_lm (lm_init ex_lm) [ex_la 1; ex_la 2] = Ok s' .
Proof. apply C25_fresh_logmoc_run_never_fails; simpl; lia. Qed.

(* the smoothed scale: four fifths of the way from the previous to the current one *)
Theorem C25_scale_smoothing : forall c a rs dL out, (1 < la_iter a)%Z -> lm_running c a (Some rs) dL = Ok out ->
  exists cur, lm_running c (mkLA 1 (la_design a) (la_rho a) (la_rho_filtered a) (la_rho_projected a) (la_dC a) (la_forward a) (la_gradient a)
      (la_move a) (la_eta a) (la_beta a) (la_percentile a) (la_volumes a) (la_vol_sum a) (la_vol_frac a)) None dL = Ok cur /\
    cur - out = (cur - rs) / 5.
Proof.
  intros c a rs dL out Hi H. unfold lm_running in *. apply Z.ltb_lt in Hi. rewrite Hi in H. injection H as <-. cbn [la_iter Z.ltb Z.compare Pos.compare Pos.compare_cont la_percentile].
  eexists. split; [reflexivity|]. lra.
Qed.
Print Assumptions C25_scale_smoothing.
(* centring removes the volume-weighted mean *)
Theorem C25_centred_mean_is_zero : forall a v, List.length v = List.length (la_volumes a) -> la_vol_sum a = rsum (la_volumes a) -> la_vol_sum a <> 0 ->
  rsum (zipwith Rmult (center a v) (la_volumes a)) = 0 /\
  exists m, center a v = map (fun x => x - m) v.
Proof.
  intros a v Hl Hs H0. split; [|eexists; reflexivity]. unfold center. set (m := _ / _).
  assert (G : forall v w, List.length v = List.length w -> rsum (zipwith Rmult (map (fun x => x - m) v) w) = rsum (zipwith Rmult v w) - m * rsum w).
  { clearbody m. clear. induction v as [|x v IH]; intros w Hl; destruct w as [|y w]; cbn in Hl; try lia.
    - unfold rsum. cbn [map zipwith fold_right]. ring.
    - cbn [map zipwith]. unfold rsum in *. cbn [fold_right]. rewrite IH by lia. ring. }
  rewrite G by exact Hl. unfold m. rewrite <- Hs. field. exact H0.
Qed.
Print Assumptions C25_centred_mean_is_zero.
