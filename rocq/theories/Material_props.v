(* Property theorems for core/projection.py and core/derivatives.py. *)
From Verif Require Import Base Material_model Material_proofs.
Open Scope R_scope.

(* C13 *)
Theorem C13_projection_zero_at_zero : forall beta eta, heaviside_projection 0 beta eta = 0.
Proof. exact H_at_0. Qed.
Print Assumptions C13_projection_zero_at_zero.

Theorem C13_projection_strictly_increasing : forall beta eta x y,
  0 < beta -> 0 <= eta <= 1 -> x < y ->
  heaviside_projection x beta eta < heaviside_projection y beta eta.
Proof. exact H_increasing. Qed.
Print Assumptions C13_projection_strictly_increasing.

Theorem C13_projection_stays_in_unit_interval : forall beta eta x,
  0 < beta -> 0 <= eta <= 1 -> 0 <= x <= 1 -> 0 <= heaviside_projection x beta eta < 1.
Proof. exact H_range. Qed.
Print Assumptions C13_projection_stays_in_unit_interval.

Theorem C13_full_density_almost_one : forall beta eta,
  0 < beta -> 0 <= eta <= 1 ->
  0 < 1 - heaviside_projection 1 beta eta < 1 / 1000000000000 / tanh beta.
Proof. exact H1_close. Qed.
Print Assumptions C13_full_density_almost_one.

Theorem C13_symmetric_about_half : forall beta x, 0 < beta ->
  heaviside_projection (1/2 + x) beta (1/2) + heaviside_projection (1/2 - x) beta (1/2) =
  heaviside_projection 1 beta (1/2).
Proof. exact H_symmetric. Qed.
Print Assumptions C13_symmetric_about_half.

(* the hypothesis beta > 0 is needed: beta = 0 is not the identity but 0 *)
Theorem C13_beta_zero_collapses : forall x eta, heaviside_projection x 0 eta = 0.
Proof. exact H_beta_zero. Qed.
Print Assumptions C13_beta_zero_collapses.

Example C13_instance : 0 < 2 /\ 0 <= 1/2 <= 1 /\ 0 <= 3/10 < 7/10.
Proof. lra. Qed.
Example C13_instance_value :
  heaviside_projection (1/2) 2 (1/2) = tanh 1 / (2 * tanh 1 + 1 / 1000000000000).
Proof.
  unfold heaviside_projection, tiny. replace (2 * (1/2 - 1/2)) with 0 by lra.
  replace (2 * (1/2)) with 1 by lra. replace (2 * (1 - 1/2)) with 1 by lra.
  rewrite tanh_0'. f_equal; lra.
Qed.

(* C14 *)
Theorem C14_projection_derivative_is_derivative : forall beta eta x,
  derivable_pt_lim (fun r => heaviside_projection r beta eta) x
    (heaviside_projection_derivative x beta eta).
Proof. exact H_derive. Qed.
Print Assumptions C14_projection_derivative_is_derivative.

Theorem C14_projection_derivative_positive : forall beta eta x,
  0 < beta -> 0 <= eta <= 1 -> 0 < heaviside_projection_derivative x beta eta.
Proof. exact dH_pos. Qed.
Print Assumptions C14_projection_derivative_positive.

(* in-place variants, for any buffers, including out = rho: same numbers, the
   result is in [out] if given and in a new buffer otherwise, and no other
   buffer changes (in particular rho is not modified unless it is out) *)
Theorem C14_inplace_projection_same_numbers : forall h rho beta eta out,
  valid h rho -> (forall o, out = Some o -> valid h o) ->
  exists o h', heaviside_projection_inplace h rho beta eta out = (o, h') /\
    h_get h' o = map (fun x => heaviside_projection x beta eta) (h_get h rho) /\
    (forall k, valid h k -> Some k <> out -> h_get h' k = h_get h k) /\
    (match out with Some o' => o = o' | None => ~ valid h o end).
Proof. exact inplace_projection. Qed.
Print Assumptions C14_inplace_projection_same_numbers.

Theorem C14_inplace_derivative_same_numbers : forall h rho beta eta out,
  valid h rho -> (forall o, out = Some o -> valid h o) ->
  exists o h', heaviside_projection_derivative_inplace h rho beta eta out = (o, h') /\
    h_get h' o = map (fun x => heaviside_projection_derivative x beta eta) (h_get h rho) /\
    (forall k, valid h k -> Some k <> out -> h_get h' k = h_get h k) /\
    (match out with Some o' => o = o' | None => ~ valid h o end).
Proof. exact inplace_derivative. Qed.
Print Assumptions C14_inplace_derivative_same_numbers.

Example C14_instance : let h := mkHeap 1 (fun _ => [1/4; 3/4]) in
  valid h 0 /\
  h_get (snd (heaviside_projection_inplace h 0 1 (1/2) (Some 0%nat))) 0%nat =
    [heaviside_projection (1/4) 1 (1/2); heaviside_projection (3/4) 1 (1/2)].
Proof.
  split; [unfold valid; simpl; lia|].
  destruct (inplace_projection (mkHeap 1 (fun _ => [1/4; 3/4])) 0 1 (1/2) (Some 0%nat))
    as (o & h' & E & V & _ & O); try (unfold valid; simpl; lia).
  { intros o [= <-]; unfold valid; simpl; lia. }
  rewrite E. simpl in O |- *. subst o. exact V.
Qed.

(* C15 *)
Theorem C15_dE_simp_is_derivative_of_E_simp : forall rho E0 Emin p,
  1 / 1000000 < rho ->
  derivable_pt_lim (fun r => E_simp r E0 Emin p) rho (dE_drho_simp rho E0 Emin p).
Proof. exact E_simp_derive. Qed.
Print Assumptions C15_dE_simp_is_derivative_of_E_simp.

Theorem C15_E_simp_is_the_analysis_modulus : forall rho E0 Emin p,
  1 / 1000000 <= rho ->
  simp_interpolation rho E0 Emin p = Some (E_simp rho E0 Emin p).
Proof. exact simp_analysis_same. Qed.
Print Assumptions C15_E_simp_is_the_analysis_modulus.

Theorem C15_modulus_in_range : forall rho E0 Emin p,
  Emin <= E0 -> 0 <= p -> rho <= 1 -> Emin <= E_simp rho E0 Emin p <= E0.
Proof. exact E_simp_range. Qed.
Print Assumptions C15_modulus_in_range.

Theorem C15_modulus_increases : forall r1 r2 E0 Emin p,
  Emin < E0 -> 0 < p -> 1 / 1000000 <= r1 < r2 ->
  E_simp r1 E0 Emin p < E_simp r2 E0 Emin p.
Proof. exact E_simp_mono. Qed.
Print Assumptions C15_modulus_increases.

Theorem C15_simp_sensitivity_never_positive : forall rho U E0 Emin p,
  Emin <= E0 -> 0 <= p -> 0 <= U -> dC_drho_simp rho U E0 Emin p <= 0.
Proof. exact dC_simp_nonpos. Qed.
Print Assumptions C15_simp_sensitivity_never_positive.

(* dC_drho_simp is the derivative of the compliance f(u) of any linear system
   whose stiffness is E(rho) * k + (contribution of the other elements), both
   symmetric, with respect to this element's density.  U is the element's
   strain energy, as the docstring demands. *)
Theorem C15_simp_sensitivity_is_compliance_derivative :
  forall (V : Type) (k rest : V -> V -> R) (f : V -> R) (u : R -> V) (rho E0 Emin p : R),
  (forall v w, k v w = k w v) -> (forall v w, rest v w = rest w v) ->
  1 / 1000000 < rho -> 1 / 1000000000000 <= E_simp rho E0 Emin p ->
  (forall t w, E_simp t E0 Emin p * k (u t) w + rest (u t) w = f w) ->
  continuity_pt (fun t => k (u t) (u rho)) rho ->
  let U := 1 / 2 * (E_simp rho E0 Emin p * k (u rho) (u rho)) in
  derivable_pt_lim (fun t => f (u t)) rho (dC_drho_simp rho U E0 Emin p).
Proof. intros V. exact (@dC_simp_is_compliance_derivative V). Qed.
Print Assumptions C15_simp_sensitivity_is_compliance_derivative.

(* a spring of stiffness E(rho) in parallel with a spring of stiffness 1 *)
Example C15_instance : forall rho, 1 / 1000000 < rho ->
  let E := fun t => E_simp t 1 (1/1000) 3 in
  let u := fun t => 5 / (E t + 1) in
  derivable_pt_lim (fun t => 5 * u t) rho
    (dC_drho_simp rho (1 / 2 * (E rho * (u rho * u rho))) 1 (1/1000) 3).
Proof.
  intros rho Hr E u.
  assert (HE : forall t, 1/1000 < E t).
  { intros t. unfold E, E_simp. pose proof (Rpower_pos (Rmax t floor6) 3). nra. }
  apply (C15_simp_sensitivity_is_compliance_derivative R (fun v w => v * w) (fun v w => v * w)
           (fun w => 5 * w) u rho 1 (1/1000) 3); auto; try (intros; ring).
  - pose proof (HE rho). unfold E in *. lra.
  - intros t w. fold (E t). unfold u. field. pose proof (HE t). lra.
  - apply continuity_pt_mult; [|apply continuity_pt_const; intros ? ?; reflexivity].
    apply (continuity_pt_div (fct_cte 5) (fun t => E t + 1)).
    + apply continuity_pt_const; intros ? ?; reflexivity.
    + apply (continuity_pt_plus E (fct_cte 1)); [|apply continuity_pt_const; intros ? ?; reflexivity].
      eapply derive_pt_lim_continuous. apply E_simp_derive; auto.
    + pose proof (HE rho). lra.
Qed.

(* C16: what the docstring promises is false for every p > 0, rho > 0 *)
Theorem C16_dE_ramp_is_derivative_refuted : forall rho E0 Emin p,
  Emin < E0 -> 0 < p -> 0 < rho <= 1 ->
  ~ derivable_pt_lim (fun r => ramp_interpolation r E0 Emin p) rho (dE_drho_ramp rho E0 Emin p).
Proof. exact dE_ramp_wrong. Qed.
Print Assumptions C16_dE_ramp_is_derivative_refuted.

(* the true derivative *)
Theorem C16_true_ramp_derivative : forall rho E0 Emin p, 0 <= p -> rho <= 1 ->
  derivable_pt_lim (fun r => ramp_interpolation r E0 Emin p) rho
    ((E0 - Emin) * (1 + p) / (1 + p * (1 - rho)) ^ 2).
Proof. exact E_ramp_derive. Qed.
Print Assumptions C16_true_ramp_derivative.

(* the computed "derivative" is even negative in part of the range ... *)
Theorem C16_dE_ramp_negative_iff : forall rho E0 Emin p,
  Emin < E0 -> 0 <= p -> 0 <= rho <= 1 ->
  (dE_drho_ramp rho E0 Emin p < 0 <-> 1 + p < 2 * p * rho).
Proof. exact dE_ramp_sign. Qed.
Print Assumptions C16_dE_ramp_negative_iff.

(* ... where the compliance sensitivity has the wrong sign *)
Theorem C16_ramp_sensitivity_sign_refuted : forall rho U E0 Emin p,
  0 <= Emin < E0 -> 0 <= p -> 0 <= rho <= 1 -> 0 < U -> 1 + p < 2 * p * rho ->
  0 < dC_drho_ramp rho U E0 Emin p.
Proof. exact dC_ramp_sign_wrong. Qed.
Print Assumptions C16_ramp_sensitivity_sign_refuted.

Theorem C16_ramp_sensitivity_nonpositive_partial : forall rho U E0 Emin p,
  Emin < E0 -> 0 <= p -> 0 <= rho <= 1 -> 0 <= U -> 2 * p * rho <= 1 + p ->
  dC_drho_ramp rho U E0 Emin p <= 0.
Proof. exact dC_ramp_ok. Qed.
Print Assumptions C16_ramp_sensitivity_nonpositive_partial.

Theorem C16_ramp_modulus_in_range : forall rho E0 Emin p,
  Emin <= E0 -> 0 <= p -> 0 <= rho <= 1 -> Emin <= ramp_interpolation rho E0 Emin p <= E0.
Proof. exact E_ramp_range. Qed.
Print Assumptions C16_ramp_modulus_in_range.

Theorem C16_inplace_variants_agree : forall h rho energy out E0 Emin p,
  out <> rho -> out <> energy ->
  List.length (h_get h energy) = List.length (h_get h rho) ->
  h_get (dE_drho_ramp_inplace h rho out E0 Emin p) out =
    map (fun x => dE_drho_ramp x E0 Emin p) (h_get h rho) /\
  h_get (dC_drho_ramp_inplace h rho energy out E0 Emin p) out =
    zipwith (fun x w => dC_drho_ramp x w E0 Emin p) (h_get h rho) (h_get h energy) /\
  (forall k, k <> out -> h_get (dC_drho_ramp_inplace h rho energy out E0 Emin p) k = h_get h k).
Proof. exact ramp_inplace_same. Qed.
Print Assumptions C16_inplace_variants_agree.

(* solid element, p = 3: sensitivity +1.. instead of negative *)
Example C16_instance : 0 <= 0 < 1 /\ 0 <= 3 /\ 0 <= 1 <= 1 /\ 0 < 1 /\ 1 + 3 < 2 * 3 * 1 /\
  dE_drho_ramp 1 1 0 3 = -2 /\ dC_drho_ramp 1 1 1 0 3 = 4.
Proof.
  repeat split; try lra.
  - unfold dE_drho_ramp. field.
  - unfold dC_drho_ramp, E_ramp, dE_drho_ramp.
    replace (0 + (1 - 0) * (1 / (1 + 3 * (1 - 1)))) with 1 by field.
    rewrite Rmax_left by (unfold tiny; lra). field.
Qed.
